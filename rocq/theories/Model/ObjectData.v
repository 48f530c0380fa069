(** Model of _pizza_cutter.py:832-905 ([_build_object_data]).

    The record array is a list of records; the columns that are filled during
    processing (ncutout, nepoch, psf_sigma, start rows) are in
    Model/Writer.v. Only element 0 of the columns with two elements per object
    is modelled, and the widths of the integer columns are not. The WCS is an
    argument. *)
From Coq Require Import ZArith List Bool.
From Verif Require Import Lib.Base Lib.Floats Model.Locate.
Import ListNotations.
Open Scope Z_scope.

Section ObjectData.
Context {F : Type} {FO : FloatOps F}.

(** [wcs.image2sky(x=, y=)] and [wcs.get_jacobian(x=, y=)], which returns
    dudcol, dudrow, dvdcol, dvdrow. *)
Variable image2sky : F -> F -> result (F * F).
Variable get_jacobian : F -> F -> result (F * F * F * F).

(** 853-889: one row of output_info. *)
Record object := mkobject {
  ob_id : Z;
  ob_box_size : Z;
  ob_file_id : Z;
  ob_psf_box_size : Z;
  ob_psf_cutout_row : F;
  ob_psf_cutout_col : F;
  ob_ra : F;
  ob_dec : F;
  ob_orig_row : F;
  ob_orig_col : F;
  ob_orig_start_row : F;
  ob_orig_start_col : F;
  ob_cutout_row : F;
  ob_cutout_col : F;
  ob_dudcol : F;
  ob_dudrow : F;
  ob_dvdcol : F;
  ob_dvdrow : F
}.

(** 884-903: the loop over the slices. *)
Fixpoint fill_objects (index : Z) (box_size psf_box_size buffer_size : Z) (cen_offset psf_cen : F)
  (position_offset : Z) (locs : list (F * F * F * F)) : result (list object) :=
  match locs with
  | [] => Ok []
  | (row, col, start_row, start_col) :: locs =>
      let x := fadd col (fofZ position_offset) in
      let y := fadd row (fofZ position_offset) in
      ' (ra, dec) <- image2sky x y ;;
      ' (j0, j1, j2, j3) <- get_jacobian x y ;;
      rest <- fill_objects (index + 1) box_size psf_box_size buffer_size cen_offset psf_cen
                position_offset locs ;;
      Ok (mkobject index box_size (-1) psf_box_size psf_cen psf_cen ra dec row col
            start_row start_col
            (fadd cen_offset (fofZ buffer_size)) (fadd cen_offset (fofZ buffer_size))
            j0 j1 j2 j3 :: rest)
  end.

(** zip(rows, cols, start_rows, start_cols), line 884. *)
Fixpoint zip4 (a b c d : list F) : list (F * F * F * F) :=
  match a, b, c, d with
  | x :: a, y :: b, z :: c, w :: d => (x, y, z, w) :: zip4 a b c d
  | _, _, _, _ => []
  end.

(** 832-905. *)
Definition build_object_data (central_size buffer_size image_width psf_box_size position_offset : Z)
  : result (list object) :=
  ' (rows, cols, start_rows, start_cols) <-
    build_slice_locations central_size buffer_size image_width ;;
  let box_size := central_size + 2 * buffer_size in
  let cen_offset := fdiv (fofZ (central_size - 1)) (fofZ 2) in
  let psf_cen := fdiv (fofZ (psf_box_size - 1)) (fofZ 2) in
  fill_objects 0 box_size psf_box_size buffer_size cen_offset psf_cen position_offset
    (zip4 rows cols start_rows start_cols).

End ObjectData.

(** _get_image_width, _pizza_cutter.py:749-756. The header is given by the
    values of the two keywords it is asked for; the answer of the cache is the
    answer of the first call (the file does not change). *)
Definition get_image_width (znaxis1 naxis1 : option Z) : result Z :=
  match znaxis1 with
  | Some n => Ok n
  | None => match naxis1 with Some n => Ok n | None => Raise KeyError end
  end.
