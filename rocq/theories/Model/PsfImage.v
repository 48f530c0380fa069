(** Model of the PSF handling of [SEImageSlice] (_se_image.py:987-1153,
    1225-1283) and of [_build_coadd_psf_layout] (_pizza_cutter.py:273-293).

    The drawing of the PSF (galsim, piff) is an argument: any function of the
    position that was asked for. *)
From Coq Require Import ZArith List Bool.
From Verif Require Import Lib.Base Lib.Floats.
Import ListNotations.
Open Scope Z_scope.

Section PsfImage.
Context {F : Type} {FO : FloatOps F}.

(** _compute_psf_stamp_bounds, 987-1005. [int] of a value that is not finite
    raises (ValueError, or OverflowError for an infinity). *)
Definition compute_psf_stamp_bounds (x y : F) (dim : Z) : result (Z * Z) :=
  let half := fdiv (fofZ (dim - 1)) (fofZ 2) in
  match ffloor (fadd x fhalf), ffloor (fadd y fhalf) with
  | Some kx, Some ky =>
      let x_cen := fofZ kx in
      let y_cen := fofZ ky in
      match ftrunc (fsub y_cen half) with
      | None => Raise ValueError
      | Some iy =>
          if negb (feqb (fsub y_cen half) (fofZ iy)) then Raise AssertionError else
          match ftrunc (fsub x_cen half) with
          | None => Raise ValueError
          | Some ix =>
              if negb (feqb (fsub x_cen half) (fofZ ix)) then Raise AssertionError else
              Ok (ix, iy)
          end
      end
  | _, _ => Raise ValueError
  end.

(** The kinds of PSF model that get_psf_image tells apart (1041, 1081, 1101,
    1144). *)
Inductive psf_kind : Type := Galsim | PsfEx | Piff | UnknownPsf.

(** 1047-1056: the stamp size used for galsim objects, from the size galsim
    proposes. *)
Definition galsim_psf_dim (n : Z) : Z := 5 * (if n mod 2 =? 0 then n + 1 else n).

Definition PIFF_STAMP_SIZE : Z := 25.

(** The call made to draw the PSF: position passed to the model, subpixel
    offset, stamp size and (for piff) lower left corner of the stamp. *)
Record draw_request := mkdraw {
  dr_x : F; dr_y : F;              (* position given to the model *)
  dr_dx : F; dr_dy : F;            (* offset of the centre in the stamp *)
  dr_n : Z;                        (* stamp size *)
  dr_xmin : Z; dr_ymin : Z         (* corner of the stamp; piff only *)
}.

Variable draw : draw_request -> result (img F).

(** [a /= np.sum(a)]. *)
Definition normalise (a : img F) : img F :=
  let s := fsum (ravel a) in imap (fun v => fdiv v s) a.

(** get_psf_image, 1007-1153. [galsim_n] is the stamp size that galsim proposed
    for the first PSF drawn; [wcs_position_offset] the offset between pixel
    conventions. The jacobian and draw method are part of [draw]. The assertions
    1115-1128 on the WCS type concern only how the object was built and are not
    modelled. *)
Definition get_psf_image (kind : psf_kind) (galsim_n wcs_position_offset : Z) (x y : F)
  : result (img F) :=
  match ffloor (fadd x fhalf), ffloor (fadd y fhalf) with
  | Some kx, Some ky =>
      let dx := fsub x (fofZ kx) in
      let dy := fsub y (fofZ ky) in
      let off := fofZ wcs_position_offset in
      psf_im <-
        (match kind with
         | Galsim =>
             draw (mkdraw x y dx dy (galsim_psf_dim galsim_n) 0 0)
         | PsfEx =>
             draw (mkdraw (fadd x off) (fadd y off) dx dy 33 0 0)
         | Piff =>
             ' (xmin, ymin) <- compute_psf_stamp_bounds x y PIFF_STAMP_SIZE ;;
             draw (mkdraw (fadd x off) (fadd y off) dx dy PIFF_STAMP_SIZE
                     (xmin + wcs_position_offset) (ymin + wcs_position_offset))
         | UnknownPsf => Raise ValueError
         end) ;;
      let psf_im := normalise psf_im in
      if negb (nrows psf_im =? ncols psf_im) then Raise AssertionError
      else if negb (nrows psf_im mod 2 =? 1) then Raise AssertionError
      else Ok psf_im
  | _, _ => Raise ValueError
  end.

(** What [set_psf] stores (1278-1281). *)
Record psf_data := mkpsf {
  pf_psf : img F;
  pf_x_start : Z;
  pf_y_start : Z;
  pf_box_size : Z
}.

(** set_psf, 1225-1283, without the model quality flag (Model/Piff.v). The
    position [(x, y)] is [self.sky2image(ra, dec)]. *)
Definition set_psf (kind : psf_kind) (galsim_n wcs_position_offset : Z) (x y : F)
  : result psf_data :=
  psf <- get_psf_image kind galsim_n wcs_position_offset x y ;;
  ' (xmin, ymin) <- compute_psf_stamp_bounds x y (nrows psf) ;;
  Ok (mkpsf psf xmin ymin (nrows psf)).

(** _build_coadd_psf_layout, _pizza_cutter.py:273-293. [(col, row)] is
    [wcs.sky2image(ra, dec)]; the results are the pixel whose sky position is
    used for the PSF (in the convention of the WCS) and the start row and column
    of the stamp. *)
Definition build_coadd_psf_layout (col row : F) (box_size position_offset : Z)
  : result ((Z * Z) * (F * F)) :=
  match ffloor (fadd col fhalf), ffloor (fadd row fhalf) with
  | Some kcol, Some krow =>
      let half := fdiv (fofZ (box_size - 1)) (fofZ 2) in
      match ftrunc half with
      | None => Raise ValueError
      | Some ih =>
          if negb (feqb (fofZ ih) half) then Raise AssertionError else
          Ok ((kcol, krow),
              (fsub (fofZ (krow - position_offset)) half,
               fsub (fofZ (kcol - position_offset)) half))
      end
  | _, _ => Raise ValueError
  end.

End PsfImage.
