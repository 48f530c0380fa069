(** Model of the preparation of a tile: add_extra_des_coadd_tile_info and
    get_coaddtile_geom, _des_info.py:72-184 and 352-413, get_piff_psf_info,
    _piff_tools.py:12-85, get_des_info_file, files.py:8-26, and the command
    bin/des-pizza-cutter-prep-tile. *)
From Coq Require Import ZArith List Bool String.
From Coq Require Import List.
From Verif Require Import Lib.Base Lib.Floats Lib.PyStr Lib.PyText Lib.PyDict Model.Piff.
Import ListNotations.
Open Scope string_scope.
Open Scope list_scope.
Open Scope Z_scope.

Section TileInfo.
Context {F : Type} {FO : FloatOps F}.

(** A row of the quality table, _piff_tools.py:63-83, without its file name. *)
Record piff_row := mkpr { pr_info : piff_info (F := F); pr_expnum : Z; pr_ccdnum : Z }.

(** The values in the dictionaries. [VOther] stands for anything that the code
    below only passes on. *)
Inductive val : Type :=
| VNone
| VInt (z : Z)
| VNum (x : F)
| VText (s : string)
| VShape (l : list Z)
| VPiff (p : piff_row)
| VOther (n : Z).

(** [d[k]]. *)
Definition getk (d : dict val) (k : string) : result val :=
  match dget d k with Some v => Ok v | None => Raise KeyError end.

(** get_piff_psf_info, _piff_tools.py:60-85, from the rows of the query: file
    name and row. A later row replaces an earlier one. *)
Definition piff_table (rows : list (string * piff_row)) : result (dict piff_row) :=
  if Nat.eqb (length rows) 0 then Raise RuntimeError
  else Ok (fold_left (fun t r => dset t (fst r) (snd r)) rows []).

(** A row of the geometry table, _des_info.py:402. *)
Record geom := mkgeom {
  g_crossra0 : val; g_udecmin : val; g_udecmax : val; g_uramin : val; g_uramax : val
}.

(** get_coaddtile_geom, _des_info.py:397-413, from the rows of the query. *)
Definition geom_dict (rows : list geom) : result (dict val) :=
  match rows with
  | [] => Raise RuntimeError
  | g :: _ => Ok [("crossra0", g_crossra0 g); ("udecmin", g_udecmin g); ("udecmax", g_udecmax g);
                  ("uramin", g_uramin g); ("uramax", g_uramax g)]
  end.

(** [d.update(e)]. *)
Definition dupdate (d e : dict val) : dict val := fold_left (fun d kv => dset d (fst kv) (snd kv)) e d.

(** What [MAGZP_REF - x] accepts. *)
Definition number (v : val) : result F :=
  match v with
  | VInt z => Ok (fofZ z)
  | VNum x => Ok x
  | _ => Raise TypeError
  end.

(** [10.0**x], the query of the quality table for an exposure and a campaign, and
    of the geometry table for a tile. *)
Variables (pow10 : F -> result F)
          (piff_rows : val -> string -> result (list (string * piff_row)))
          (geom_rows : val -> result (list geom)).

(** _des_info.py:173-184. *)
Definition add_piff (campaign : option string) (ii : dict val) : result (dict val) :=
  match dget ii "piff_path", campaign with
  | None, _ | Some VNone, _ | _, None => Ok ii
  | Some (VText p), Some c =>
      e <- getk ii "expnum" ;;
      rows <- piff_rows e c ;;
      t <- piff_table rows ;;
      match dget t (basename p) with
      | Some r => Ok (dset ii "piff_info" (VPiff r))
      | None => Raise KeyError
      end
  | Some _, Some _ => Raise TypeError
  end.

(** The loop body, _des_info.py:148-184. MAGZP_REF and POSITION_OFFSET are in
    _constants.py:17 and 62. What an exception leaves in the dictionary is not
    modelled. *)
Definition prep_source (campaign : option string) (ii : dict val) : result (dict val) :=
  let ii := dset ii "image_shape" (VShape [4096; 2048]) in
  let ii := dset ii "image_flags" (VInt 0) in
  let ii := dset ii "image_ext" (VText "sci") in
  p <- getk ii "image_path" ;;
  let ii := dset ii "weight_path" p in
  let ii := dset ii "weight_ext" (VText "wgt") in
  p <- getk ii "image_path" ;;
  let ii := dset ii "bmask_path" p in
  let ii := dset ii "bmask_ext" (VText "msk") in
  let ii := dset ii "bkg_ext" (VText "sci") in
  let ii := dset ii "position_offset" (VInt 1) in
  p <- getk ii "psf_path" ;;
  let ii := dset ii "psfex_path" p in
  m <- getk ii "magzp" ;;
  x <- number m ;;
  s <- pow10 (fmul (fdec 4 10) (fsub (fofZ 30) x)) ;;
  let ii := dset ii "scale" (VNum s) in
  add_piff campaign ii.

(** _des_info.py:125-146. *)
Definition prep_coadd (info : dict val) : result (dict val) :=
  let info := dset info "position_offset" (VInt 1) in
  let info := dset info "image_ext" (VText "sci") in
  p <- getk info "image_path" ;;
  let info := dset info "weight_path" p in
  let info := dset info "weight_ext" (VText "wgt") in
  p <- getk info "image_path" ;;
  let info := dset info "bmask_path" p in
  let info := dset info "bmask_ext" (VText "msk") in
  let info := dset info "seg_ext" (VText "sci") in
  let info := dset info "magzp" (VNum (fofZ 30)) in
  let info := dset info "scale" (VNum (fofZ 1)) in
  let info := dset info "image_shape" (VShape [10000; 10000]) in
  let info := dset info "image_flags" (VInt 0) in
  t <- getk info "tilename" ;;
  rows <- geom_rows t ;;
  g <- geom_dict rows ;;
  Ok (dupdate info g).

Fixpoint prep_sources (campaign : option string) (l : list (dict val)) : result (list (dict val)) :=
  match l with
  | [] => Ok []
  | ii :: rest =>
      ii <- prep_source campaign ii ;;
      rest <- prep_sources campaign rest ;;
      Ok (ii :: rest)
  end.

(** The info dictionary: the list under 'src_info' is kept apart. *)
Record info := mkinfo { in_coadd : dict val; in_src : list (dict val) }.

(** add_extra_des_coadd_tile_info, _des_info.py:72-184. *)
Definition add_extra (campaign : option string) (i : info) : result info :=
  c <- prep_coadd (in_coadd i) ;;
  s <- prep_sources campaign (in_src i) ;;
  Ok (mkinfo c s).

(** ** The command *)

(** get_des_info_file, files.py:21-26; [env] is [os.environ]. *)
Definition info_file (env : string -> option string) (medsconf tilename band : string) : result string :=
  match env "MEDS_DIR" with
  | None => Raise KeyError
  | Some d => Ok (path_join (path_join (path_join d medsconf) "pizza_cutter_info")
                    (tilename ++ "_" ++ band ++ "_pizza_cutter_info.yaml"))%string
  end.

(** What the command does to the outside world. *)
Inductive event : Type :=
| Cleaned                        (* coadd.clean() *)
| FetchedStars (path : string)   (* download_archive_file *)
| FetchedData                    (* coadd.download() *)
| Opened (path : string)         (* open(path, 'w'): the file is empty now *)
| Dumped (path : string) (i : info).

(** Events and the exception, if any. *)
Definition outcome : Type := list event * option pyexc.

Definition step {A} (r : result A) (k : A -> outcome) : outcome :=
  match r with Ok a => k a | Raise e => ([], Some e) end.
Definition emit (e : event) (o : outcome) : outcome := (e :: fst o, snd o).

(** The configuration: cfg["des_data"]["piff_campaign"]; None for a null. *)
Variables (env : string -> option string)
          (medsconf tilename band source_dir : string)
          (piff_campaign : option string)
          (setup : result unit)            (* 70-96: the objects of desmeds *)
          (gaia_path : result string)      (* get_gaia_path *)
          (clean : result unit)
          (fetch_stars : string -> result unit)
          (fetch_data : result unit)
          (get_info : result info)
          (check : info -> result unit)    (* check_info *)
          (dump : info -> result unit).    (* yaml.dump *)

(** main of bin/des-pizza-cutter-prep-tile, 48-126, after reading the
    configuration. *)
Definition prep_tile (do_clean : bool) : outcome :=
  step setup (fun _ =>
  step gaia_path (fun g =>
  if do_clean then step clean (fun _ => emit Cleaned ([], None))
  else
    step (fetch_stars g) (fun _ => emit (FetchedStars g) (
    step fetch_data (fun _ => emit FetchedData (
    step get_info (fun i =>
    let i := mkinfo (dset (in_coadd i) "gaia_stars_file" (VText (path_join source_dir g))) (in_src i) in
    match piff_campaign with
    | None => ([], Some AttributeError)     (* None.upper() *)
    | Some c =>
        step (add_extra (Some (upper c)) i) (fun i =>
        step (check i) (fun _ =>
        step (info_file env medsconf tilename band) (fun path =>
        emit (Opened path) (
        step (dump i) (fun _ => emit (Dumped path i) ([], None))))))
    end))))))).

End TileInfo.
Arguments val : clear implicits.
Arguments piff_row : clear implicits.
Arguments geom : clear implicits.
Arguments info : clear implicits.
Arguments event : clear implicits.
