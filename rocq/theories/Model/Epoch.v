(** Model of the rough cut of _coadd_slices.py:210-264 with the image objects
    themselves: the pieces of Model/SeWcs.v, SkyBounds.v, SeImage.v, PsfImage.v and
    Piff.v in the order in which they are called. (Model/SliceInputs.v only has
    the answers of the objects.) *)
From Coq Require Import ZArith List Bool String.
From Coq Require Import List.
From Verif Require Import Lib.Base Lib.Floats Model.SkyBounds Model.SeImage Model.SeWcs Model.PsfImage
  Model.Piff Model.SliceInputs.
Import ListNotations.
Open Scope list_scope.
Open Scope Z_scope.

Section Epoch.
Context {F : Type} {FO : FloatOps F} {P : Type}.

(** An entry of se_src_info. The images behind its paths are given; they may be
    unreadable. *)
Record entry := mkentry {
  e_image_id : Z;
  e_image_flags : Z;
  e_offset : Z;                           (* position_offset *)
  e_info : SeWcs.source (F := F) (P := P);      (* the keys that the constructor reads *)
  e_pixels : result (SeImage.source (F := F));  (* image, background and weight *)
  e_bmask : result (img Z);
  e_noise_seeds : list Z;
  e_piff_seed : Z                         (* mask_piff_failure_seed *)
}.

(** The configuration. *)
Record options := mkoptions {
  op_psf : choice P;
  op_wcs : choice (wcs F);
  op_color : F;
  op_frac_buffer : F;
  op_edge_buffer : Z;
  op_tape_bumps : bool;
  op_piff_failure : option (F * Z)        (* max_abs_T_diff and grid_size *)
}.

(** What the libraries do. [x_kind] tells the kind of a PSF model, [x_galsim_n]
    is the stamp size that galsim proposes, [x_draw] draws a stamp with the WCS of
    the image, [x_sample] are the sizes of the model on the grid: model, grid size,
    seed. *)
Record world := mkworld {
  w_image_wcs : string -> string -> result (wcs F);
  w_head_wcs : string -> string -> string -> result (wcs F);
  w_piff : string -> Z -> result (P * wcs F);
  w_psfex : string -> result P;
  w_shape : string -> string -> result (Z * Z);
  w_radec_to_uv : F -> F -> F -> F -> F * F;
  w_cosdeg : F -> F;
  w_pow10 : F -> F;
  w_normal : Z -> Z -> F;
  w_store : F -> F;
  w_kind : P -> psf_kind;
  w_galsim_n : P -> Z;
  w_draw : P -> slice_wcs (F := F) -> draw_request (F := F) -> result (img F);
  w_sample : P -> Z -> Z -> result (list F)
}.
Variable w : world.

(** The constructor call, 216-237. *)
Definition make_object (op : options) (e : entry) : result (se_object (F := F) (P := P)) :=
  init (w_image_wcs w) (w_head_wcs w) (w_piff w) (w_psfex w) (w_shape w) (w_radec_to_uv w) (w_cosdeg w)
    (e_info e) (op_psf op) (op_wcs op) (fofZ (e_offset e)) (op_color op).

(** The piff model that is tested, _se_image.py:350-353 with the arguments of
    1257-1264: the one of the file, whatever model is drawn. *)
Definition tested_model (e : entry) : result P :=
  p <- need (s_piff_path (e_info e)) ;;
  k <- need (s_ccdnum (e_info e)) ;;
  res <- w_piff w p k ;;
  Ok (fst res).

(** 258, [set_slice] and 262, [set_psf], on an object. The order in which the
    files are read is not modelled. *)
Definition fill_object (op : options) (e : entry) (o : se_object (F := F) (P := P)) (b : zbounds)
  (ra_psf dec_psf : F) : result (se_slice (F := F) * bool) :=
  pixels <- e_pixels e ;;
  bmask <- e_bmask e ;;
  ' (sl, _) <- set_slice (w_pow10 w) (w_normal w) (w_store w) pixels (op_tape_bumps op) (e_noise_seeds e)
                 bmask b ;;
  ' (x, y) <- sky2image1 (so_wcs o) ra_psf dec_psf ;;
  ' (pf, flag) <-
    set_psf_flagged (w_draw w (so_psf o) (so_wcs o)) (w_kind w (so_psf o)) (w_galsim_n w (so_psf o))
      (e_offset e) x y
      (match op_piff_failure op with Some (m, _) => Some m | None => None end)
      (match op_piff_failure op with
       | Some (_, g) => m <- tested_model e ;; w_sample w m g (e_piff_seed e)
       | None => Ok []
       end) ;;
  Ok (SliceInputs.mkslice (e_image_id e) (SeImage.sl_x_start sl) (SeImage.sl_y_start sl)
        (SeImage.sl_box_size sl) (SeImage.sl_image sl) (SeImage.sl_weight sl) (SeImage.sl_bmask sl)
        (SeImage.sl_noises sl) (pf_psf pf) (pf_x_start pf) (pf_y_start pf) (pf_box_size pf), flag).

(** The body of the loop, 215-264: None for an image that is passed over. *)
Definition examine (op : options) (ra dec ra_psf dec_psf : F) (box_size : Z) (e : entry)
  : result (option (se_slice (F := F) * bool)) :=
  if negb (e_image_flags e =? 0) then Ok None else
  o <- make_object op e ;;
  if negb (se_contains_radec (w_radec_to_uv w) o ra dec) then Ok None else
  ' (col, row) <- sky2image1 (so_wcs o) ra dec ;;
  b <- compute_slice_bounds (op_frac_buffer op) box_size col row ;;
  if negb (ccd_contains_bounds (so_shape o) b (op_edge_buffer op)) then Ok None else
  sp <- fill_object op e o b ra_psf dec_psf ;;
  Ok (Some sp).

(** 214-264. *)
Fixpoint find_slices (op : options) (ra dec ra_psf dec_psf : F) (box_size : Z) (l : list entry)
  : result (list (se_slice (F := F) * bool)) :=
  match l with
  | [] => Ok []
  | e :: l =>
      a <- examine op ra dec ra_psf dec_psf box_size e ;;
      rest <- find_slices op ra dec ra_psf dec_psf box_size l ;;
      Ok (match a with Some sp => sp :: rest | None => rest end)
  end.

(** What Model/SliceInputs.v and Model/SingleSlice.v take as the answers of an
    image. An exception of any of the calls is put where the slice is read. *)
Definition answers (op : options) (ra dec ra_psf dec_psf : F) (box_size : Z) (e : entry)
  : se_source (F := F) :=
  match examine op ra dec ra_psf dec_psf box_size e with
  | Raise x => mksource 0 true true (Raise x) false
  | Ok None => mksource (e_image_flags e) false false (Raise OtherError) false
  | Ok (Some (s, flag)) => mksource 0 true true (Ok s) flag
  end.

End Epoch.
Arguments entry : clear implicits.
Arguments options : clear implicits.
Arguments world : clear implicits.
