(** Model of the command bin/des-pizza-cutter, 20-172: from the two input files to
    the call of make_des_pizza_slices.

    load_objects_into_info is modelled on the dictionaries, for skip_se=True
    (_load_info.py:70-118); flag_data_in_info, check_info, the name of the output
    and make_des_pizza_slices are those of Piff.v, DesInfo.v, Cli.v and Main.v,
    applied to what they read from the dictionaries. Printing and logging are not
    modelled, except for the keys that are looked up for it. *)
From Coq Require Import ZArith List Bool String.
From Coq Require Import List.
From Verif Require Import Lib.Base Lib.Floats Lib.PyStr Lib.PyText Lib.PyDict Model.Files Model.SliceRange
  Model.ImageInfo Model.ObjectData Model.Writer Model.Metadata Model.Main Model.Piff Model.DesInfo Model.Cli
  Model.TileInfo.
Import ListNotations.
Open Scope string_scope.
Open Scope list_scope.
Open Scope Z_scope.

Section Go.
Context {F : Type} {FO : FloatOps F}.
(** The WCS of a header, an affine WCS, and a galsim object. *)
Context {W A G : Type}.

(** What a key of the dictionaries can hold: something that was in the file, or an
    object that was made from it. *)
Inductive value : Type :=
| Plain (v : val F)
| HeaderWcs (w : W)
| AffineWcs (a : A)
| Psf (g : G).

(** The info dictionary: the list under 'src_info' is kept apart. *)
Record entries := mkent { en_coadd : dict value; en_src : list (dict value) }.

Definition as_read (d : dict (val F)) : dict value := map (fun kv => (fst kv, Plain (snd kv))) d.

(** [d[k]] and [k in d]. *)
Definition getv (d : dict value) (k : string) : result value :=
  match dget d k with Some v => Ok v | None => Raise KeyError end.
Definition has (d : dict value) (k : string) : bool :=
  match dget d k with Some _ => true | None => false end.

(** ** load_objects_into_info *)

(** FastHashingWCS of the header of a file and extension, _load_info.py:72-74;
    AffineWCS of a configuration, 87 and 115; _build_gsobject, 118. *)
Variables (header_wcs : value -> value -> result W)
          (affine_wcs : value -> result A)
          (gsobject : value -> result G).

(** 93-94 and 109-110. A tuple and a list with the same elements are not told
    apart here; a text or a dictionary, of which Python would make a tuple too, is
    taken for an error. *)
Definition shape_tuple (d : dict value) : result (dict value) :=
  match dget d "image_shape" with
  | None => Ok d
  | Some (Plain (VShape l)) => Ok (dset d "image_shape" (Plain (VShape l)))
  | Some _ => Raise TypeError
  end.

(** 86-87 and 114-115. *)
Definition load_affine (d : dict value) : result (dict value) :=
  match dget d "affine_wcs_config" with
  | None => Ok d
  | Some c => a <- affine_wcs c ;; Ok (dset d "affine_wcs" (AffineWcs a))
  end.

(** 70-94. *)
Definition load_coadd (d : dict value) : result (dict value) :=
  _ <- getv d "path" ;;
  _ <- getv d "filename" ;;
  d <- match (p <- getv d "image_path" ;; x <- getv d "image_ext" ;; header_wcs p x) with
       | Ok w => Ok (dset d "image_wcs" (HeaderWcs w))
       | Raise e => if has d "affine_wcs_config" then Ok (dset d "image_wcs" (Plain VNone)) else Raise e
       end ;;
  d <- load_affine d ;;
  let d := dset d "image_id" (Plain (VInt 0)) in
  shape_tuple d.

(** 105-118. *)
Definition load_entry (index : Z) (d : dict value) : result (dict value) :=
  let d := dset d "image_id" (Plain (VInt (index + 1))) in
  d <- shape_tuple d ;;
  d <- load_affine d ;;
  match dget d "galsim_psf_config" with
  | None => Ok d
  | Some c => g <- gsobject c ;; Ok (dset d "galsim_psf" (Psf g))
  end.

Fixpoint load_entries (index : Z) (l : list (dict value)) : result (list (dict value)) :=
  match l with
  | [] => Ok []
  | d :: rest =>
      d <- load_entry index d ;;
      rest <- load_entries (index + 1) rest ;;
      Ok (d :: rest)
  end.

Definition load (t : entries) : result entries :=
  c <- load_coadd (en_coadd t) ;;
  l <- load_entries 0 (en_src t) ;;
  Ok (mkent c l).

(** ** flag_data_in_info *)

(** What flag_data_in_info reads of a source. Flags and CCD numbers that are not
    integers, and a 'piff_info' that is not a row of the quality table, are taken to
    be missing. *)
Definition int_key (d : dict value) (k : string) : option Z :=
  match dget d k with Some (Plain (VInt z)) => Some z | _ => None end.

Definition src_view (d : dict value) : src_info (F := F) :=
  mksi (int_key d "image_flags") (int_key d "ccdnum")
    (match dget d "piff_info" with Some (Plain (VPiff r)) => Some (pr_info r) | _ => None end)
    (has d "path" && has d "filename").

(** What an exception leaves in the dictionaries does not matter here. *)
Definition flag_entry (config : option (se_config (F := F))) (d : dict value) : result (dict value) :=
  match flag_source config (src_view d) with
  | (_, Some e) => Raise e
  | (s, None) => Ok (match si_flags s with
                     | Some f => dset d "image_flags" (Plain (VInt f))
                     | None => d
                     end)
  end.

Definition flag_data (config : option (se_config (F := F))) (t : entries) : result entries :=
  l <- mapM (flag_entry config) (en_src t) ;;
  Ok (mkent (en_coadd t) l).

(** ** check_info *)

(** [_key_is_null] takes the length of what is there: a number has none. *)
Definition path_key (d : dict value) (k : string) : result pathval :=
  match dget d k with
  | None => Ok Missing
  | Some (Plain VNone) => Ok Null
  | Some (Plain (VText s)) => Ok (Path s)
  | Some _ => Raise TypeError
  end.

(** Texts and whole numbers; anything else there is taken for an error. *)
Definition text_key (d : dict value) (k : string) : result string :=
  v <- getv d k ;;
  match v with Plain (VText s) => Ok s | _ => Raise TypeError end.
Definition whole_key (d : dict value) (k : string) : result Z :=
  v <- getv d k ;;
  match v with Plain (VInt z) => Ok z | _ => Raise TypeError end.
Definition number_key (d : dict value) (k : string) : result F :=
  v <- getv d k ;;
  match v with Plain p => number p | _ => Raise TypeError end.

Definition se_view (d : dict value) : result se_entry :=
  band <- text_key d "band" ;;
  tilename <- text_key d "tilename" ;;
  expnum <- whole_key d "expnum" ;;
  ccdnum <- whole_key d "ccdnum" ;;
  bkg <- path_key d "bkg_path" ;;
  bmask <- path_key d "bmask_path" ;;
  image <- path_key d "image_path" ;;
  piff <- path_key d "piff_path" ;;
  psfex <- path_key d "psfex_path" ;;
  psf <- path_key d "psf_path" ;;
  seg <- path_key d "seg_path" ;;
  weight <- path_key d "weight_path" ;;
  head <- path_key d "head_path" ;;
  Ok (mkse band tilename expnum ccdnum bkg bmask image piff psfex psf seg weight head).

Definition tile_view (t : entries) : result (DesInfo.tile_info (F := F)) :=
  let c := en_coadd t in
  image <- path_key c "image_path" ;;
  seg <- path_key c "seg_path" ;;
  bmask <- path_key c "bmask_path" ;;
  psf <- path_key c "psf_path" ;;
  gaia <- path_key c "gaia_stars_file" ;;
  cat <- path_key c "cat_path" ;;
  scale <- number_key c "scale" ;;
  band <- text_key c "band" ;;
  l <- mapM se_view (en_src t) ;;
  Ok (DesInfo.mktile image seg bmask psf gaia cat scale band l).

(** How Python iterates over sets. *)
Variables (pop first : list string -> string).

Definition check (t : entries) : result unit :=
  v <- tile_view t ;;
  check_info pop first v.

(** ** The arguments of make_des_pizza_slices *)

(** The configuration: what is read of the sections 'coadd' and 'single_epoch'. *)
Record coadd_config := mkcc {
  cc_central : option Z; cc_buffer : option Z; cc_psf_box : option Z; cc_wcs_type : option string
}.
Record config := mkcfg {
  cf_coadd : option coadd_config;
  cf_single_epoch : option (se_config (F := F))
}.

(** [json.dumps(eval(str(...)))] of what a dictionary has as its WCS, or of the WCS
    of its image (_noerr_load_image_wcs, _pizza_cutter.py:908-918). *)
Variable wcs_text : dict value -> result string.

Definition im_view (d : dict value) : result (@im_entry F) :=
  id <- whole_key d "image_id" ;;
  flags <- whole_key d "image_flags" ;;
  magzp <- number_key d "magzp" ;;
  scale <- number_key d "scale" ;;
  offset <- number_key d "position_offset" ;;
  ip <- text_key d "image_path" ;; ie <- text_key d "image_ext" ;;
  wp <- text_key d "weight_path" ;; we <- text_key d "weight_ext" ;;
  bp <- text_key d "bmask_path" ;; be <- text_key d "bmask_ext" ;;
  gp <- text_key d "bkg_path" ;; ge <- text_key d "bkg_ext" ;;
  Ok (mkim id flags magzp scale offset ip ie wp we bp be gp ge (wcs_text d)).

(** The paths of the coadd are not read. *)
Definition im_coadd (d : dict value) : result (@im_entry F) :=
  id <- whole_key d "image_id" ;;
  flags <- whole_key d "image_flags" ;;
  magzp <- number_key d "magzp" ;;
  scale <- number_key d "scale" ;;
  offset <- number_key d "position_offset" ;;
  Ok (mkim id flags magzp scale offset "" "" "" "" "" "" "" "" (wcs_text d)).

(** ZNAXIS1 and NAXIS1 of the coadd image. *)
Variable coadd_header : dict value -> result (option Z * option Z).

(** [config_text] is the text of the configuration file. A shape that is not a
    pair, an offset that is not whole, or a star catalogue whose name is not a
    text, are taken to be missing. *)
Definition slice_args (t : entries) (c : coadd_config) (config_text json : text) (slice_range : option string)
  (n_extra : Z) : result (@args F value) :=
  let d := en_coadd t in
  coadd <- im_coadd d ;;
  srcs <- mapM im_view (en_src t) ;;
  Ok (mkargs value config_text json coadd srcs
        (match dget d "image_shape" with Some (Plain (VShape [r; c])) => Some (r, c) | _ => None end)
        (coadd_header d)
        (cc_central c) (cc_buffer c) (cc_psf_box c)
        (match cc_wcs_type c with Some w => dget d (w ++ "_wcs")%string | None => None end)
        (int_key d "position_offset")
        (match dget d "gaia_stars_file" with Some (Plain (VText s)) => Some s | _ => None end)
        (match slice_range with None => SNone | Some s => SStr s end)
        n_extra).

(** ** The command *)

(** Its options. *)
Record options := mkopt {
  op_config : string;
  op_info : string;
  op_tag : option string;
  op_output : string;
  op_log_level : string;
  op_range : option string;
  op_n_extra : Z
}.

(** The level of that name in the logging module; the text of a file; yaml; json;
    the expansion of a path. *)
Variables (level : string -> result Z)
          (read : string -> result text)
          (parse_config : text -> result config)
          (parse_info : text -> result (info F))
          (dumps : info F -> result text)
          (expand : string -> path).

(** go, 26-90: everything before the call of make_des_pizza_slices: what it is
    given, with the dictionaries and the configuration. *)
Definition go_plan (o : options)
  : result (@args F value * path * entries * config) :=
  _ <- level (upper (op_log_level o)) ;;
  config_text <- read (op_config o) ;;
  cfg <- parse_config config_text ;;
  info_text <- read (op_info o) ;;
  i <- parse_info info_text ;;
  tilename <- getk (in_coadd i) "tilename" ;;
  band <- getk (in_coadd i) "band" ;;
  json <- dumps i ;;
  let t := mkent (as_read (in_coadd i)) (map as_read (in_src i)) in
  t <- load t ;;
  t <- flag_data (cf_single_epoch cfg) t ;;
  _ <- check t ;;
  out <- meds_path (op_output o) (op_config o) (op_tag o) (op_range o)
           (match tilename with VText s => s | _ => "" end) (match band with VText s => s | _ => "" end) ;;
  cc <- key (cf_coadd cfg) ;;
  _ <- key (cf_single_epoch cfg) ;;
  a <- slice_args t cc config_text json (op_range o) (op_n_extra o) ;;
  Ok (a, expand out, t, cfg).

(** The rest are the arguments of Main.v. The work on the slices may use the
    dictionaries and the configuration. *)
Variables (V E E' Stars : Type)
          (env : string -> option text) (ver : string -> text)
          (image2sky : value -> F -> F -> result (F * F))
          (get_jacobian : value -> F -> F -> result (F * F * F * F))
          (work : entries -> config -> @args F value -> @prepared F value -> result (@out F V E))
          (combine_epochs : list E -> result E')
          (read_stars : string -> value -> Z -> result Stars)
          (C : Type) (bytes : @fits_file F V E' Stars -> C) (partial : option C) (fpack : C -> bool * option C)
          (valid : C -> bool) (dev : device C).

(** go, 20-95. *)
Definition go (s : fsys C) (o : options) (tmpdir : option string) : fsys C * result unit :=
  match go_plan o with
  | Raise e => (s, Raise e)
  | Ok (a, out, t, cfg) =>
      make_slices V E E' Stars value env ver image2sky get_jacobian (work t cfg) combine_epochs read_stars
        C bytes partial fpack valid dev s a out tmpdir (remove_fits_file (op_log_level o) tmpdir)
  end.

(** Leaving the [with] statement of a temporary directory: it is removed with all
    that is in it. *)
Definition rmtree (s : fsys C) (d : string) : fsys C :=
  mk_fsys (fun p => if String.eqb (fst p) d then None else file s p)
          (fun e => if String.eqb e d then false else isdir s e).

(** main, 155-172. [make dir] is the name of the new directory, made inside [dir]
    or in the default place; making it may fail. *)
Definition main (make : option string -> result string) (s : fsys C) (o : options)
  (use_tmpdir : bool) (tmpdir : option string) : fsys C * result unit :=
  if use_tmpdir || match tmpdir with None => false | Some _ => true end then
    match make tmpdir with
    | Raise e => (s, Raise e)
    | Ok d =>
        let '(s, r) := go (apply s (Mkdir d)) o (Some d) in
        (rmtree s d, r)
    end
  else go s o tmpdir.

End Go.
