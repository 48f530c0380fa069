(** Model of make_des_pizza_slices, _pizza_cutter.py:77-238, and of the end of
    _coadd_and_write_images, 649-653: which parts of the file are made from what,
    in which order, and what happens before the output is touched.

    The work on the slices (Model/Sched.v, Writer.v, SingleSlice.v) is given by its
    outcome, since it depends on the schedule. The tile name and band, which are
    read for the dither seed, are taken to be there: the command line tool prints
    both first. *)
From Coq Require Import ZArith List Bool String.
From Coq Require Import List.
From Verif Require Import Lib.Base Lib.Floats Lib.PyStr Model.Files Model.SliceRange Model.ImageInfo Model.ObjectData
  Model.Writer Model.Metadata.
Import ListNotations.
Open Scope string_scope.
Open Scope list_scope.
Open Scope Z_scope.

Section Main.
Context {F : Type} {FO : FloatOps F}.
Variables (V E E' Stars WCS : Type).

(** What an extension of the file holds. *)
Inductive content : Type :=
| CImage (h : hdu V)
| CObjects (l : list (@object F * @obj F))      (* object_data: the two parts of each row *)
| CEpochs (e : E')
| CMeta (m : @metadata F)
| CBytes (b : list Z)
| CImages (l : list (@im_row F))                (* image_info *)
| CStars (s : Stars).

(** The extensions in the order in which they are written. *)
Definition fits_file : Type := list (string * content).

(** The arguments and what is read from them. [None] is a missing key. *)
Record args := mkargs {
  a_config : text;
  a_json : text;
  a_coadd : @im_entry F;
  a_srcs : list (@im_entry F);
  a_shape : option (Z * Z);              (* info['image_shape']: rows, columns *)
  a_header : result (option Z * option Z);  (* of the coadd image: ZNAXIS1, NAXIS1 *)
  a_central : option Z;
  a_buffer : option Z;
  a_psf_box : option Z;
  a_wcs : option WCS;                    (* info['%s_wcs' % coadd_config['wcs_type']] *)
  a_offset : option Z;                   (* info['position_offset'] *)
  a_stars : option string;               (* info.get('gaia_stars_file', None) *)
  a_slices : slice_arg;
  a_n_extra : Z
}.

Definition key {A} (o : option A) : result A :=
  match o with Some v => Ok v | None => Raise KeyError end.

Variables (env : string -> option text) (ver : string -> text)
          (image2sky : WCS -> F -> F -> result (F * F))
          (get_jacobian : WCS -> F -> F -> result (F * F * F * F)).

(** What is made before the output is touched, 152-171. *)
Record prepared := mkprep {
  p_meta : @metadata F;
  p_bytes : list Z;
  p_images : list (@im_row F);
  p_objects : list (@object F);
  p_wcs : WCS;
  p_offset : Z
}.

Definition prepare (a : args) : result prepared :=
  ' (m, b) <- build_metadata env ver (a_config a) (a_json a) ;;
  ii <- build_image_info (a_coadd a) (a_srcs a) ;;
  width <- match a_shape a with
           | Some (_, c) => Ok c
           | None => ' (z, n) <- a_header a ;; get_image_width z n
           end ;;
  central <- key (a_central a) ;;
  buffer <- key (a_buffer a) ;;
  psf_box <- key (a_psf_box a) ;;
  wcs <- key (a_wcs a) ;;
  offset <- key (a_offset a) ;;
  objs <- build_object_data (image2sky wcs) (get_jacobian wcs) central buffer width psf_box offset ;;
  Ok (mkprep m b ii objs wcs offset).

(** The work on the slices: its outcome, given what was prepared. [combine] is
    combine_arrlist, [read_stars] is _read_gaia_stars. *)
Variables (work : args -> prepared -> result (@out F V E))
          (combine_epochs : list E -> result E')
          (read_stars : string -> WCS -> Z -> result Stars).

(** _coadd_and_write_images: the slices, 520-523, info['image_shape'], 528, then
    the work, 556-647, then the tables, 649-653. *)
Definition coadd_and_write (a : args) (p : prepared) : result fits_file :=
  rg <- extract_slice_range (a_slices a) (Z.of_nat (length (p_objects p))) ;;
  _ <- key (a_shape a) ;;
  o <- work a p ;;
  let images := flat_map (fun n => match o_fits V E o n with Some h => [(n, CImage h)] | None => [] end)
                  (reserve_names (a_n_extra a) ++ [PSF_EXT]) in
  let rows := combine (p_objects p) (map (o_obj V E o) (zrange 0 (Z.of_nat (length (p_objects p))))) in
  let file := images ++ [("object_data", CObjects rows)] in
  if Nat.eqb (length (o_epochs V E o)) (length (range_list rg)) then
    e <- combine_epochs (o_epochs V E o) ;;
    Ok (file ++ [("epochs_info", CEpochs e)])
  else Raise AssertionError.

(** 184-214: the uncompressed file. *)
Definition whole_file (a : args) (p : prepared) : result fits_file :=
  f <- coadd_and_write a p ;;
  let f := f ++ [("metadata", CMeta (p_meta p))] in
  let f := f ++ [("tile_info", CBytes (p_bytes p))] in
  let f := f ++ [("image_info", CImages (p_images p))] in
  match a_stars a with
  | None => Ok f
  | Some name => s <- read_stars name (p_wcs p) (p_offset p) ;; Ok (f ++ [("gaia_stars", CStars s)])
  end.

(** make_des_pizza_slices. [fpack] gives its success and what it leaves at the
    compressed path; [partial] is what an exception leaves of the file. *)
Variables (C : Type) (bytes : fits_file -> C) (partial : option C) (fpack : C -> bool * option C)
          (valid : C -> bool) (dev : device C).

Definition make_slices (s : fsys C) (a : args) (meds_path : path) (tmpdir : option string)
  (remove_fits_file : bool) : fsys C * result unit :=
  match prepare a with
  | Raise e => (s, Raise e)
  | Ok p =>
      let r := f <- whole_file a p ;; Ok (bytes f) in
      let '(ok, packed) := match r with Ok c => fpack c | Raise _ => (false, None) end in
      make_slices_files s (mk_world r partial ok packed valid dev) meds_path tmpdir remove_fits_file
  end.

End Main.
