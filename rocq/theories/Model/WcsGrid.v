(** Model of the WCS lookup tables: _get_wcs_inverse, _compute_wcs_area and
    _get_wcs_area_interp (pizza_cutter/des_pizza_cutter/_se_image.py:133-227) and
    the interpolators of pizza_cutter/coadding/_wcs_utils.py. *)
From Coq Require Import ZArith List Bool.
From Verif Require Import Lib.Base Lib.Floats Model.Wrap.
Import ListNotations.
Open Scope Z_scope.

(** [np.mgrid[:stop:step]] for integers: [ceil(stop / step)] nodes starting at 0.
    A zero step divides by zero; a negative number of nodes is a ValueError. (The
    quotient is a double in numpy, see [mgrid_size]; here it is exact.) *)
Definition mgrid_nodes (stop step : Z) : result (list Z) :=
  if step =? 0 then Raise ZeroDivisionError
  else
    let n := - ((- stop) / step) in
    if n <? 0 then Raise ValueError
    else Ok (map (fun k => k * step) (zrange 0 n)).

(** [y, x = np.mgrid[..., ...]] followed by [ravel]: the pairs (y, x), x fastest. *)
Definition mgrid_pairs (ys xs : list Z) : list (Z * Z) :=
  flat_map (fun y => map (fun x => (y, x)) xs) ys.

Section WcsGrid.
Context {F : Type} {FO : FloatOps F}.

(** The number of nodes of [np.mgrid[:stop:step]] as numpy computes it,
    [ceil(stop / (step * 1.0))]; [None] if the quotient is not finite. *)
Definition mgrid_size (stop step : Z) : option Z :=
  option_map Z.opp (ffloor (fneg (fdiv (fofZ stop) (fofZ step)))).

(** _wcs_utils.py:50-53 [WCSInversionInterpolator.__init__]: the points (y, x) of
    the triangulation and the two lists of values given to scipy. *)
Record inversion : Type := mk_inversion {
  inv_pts : list (F * F); inv_x : list F; inv_y : list F
}.
Definition inversion_init (x_in y_in x_out y_out : list F) : inversion :=
  mk_inversion (combine y_in x_in) x_out y_out.

(** _wcs_utils.py:55-82 [__call__] at one point; [ct] is scipy's
    CloughTocher2DInterpolator: points, values, position (y, x) -> value. *)
Definition inversion_call (ct : list (F * F) -> list F -> F * F -> F) (i : inversion) (x y : F) : F * F :=
  (ct (inv_pts i) (inv_x i) (y, x), ct (inv_pts i) (inv_y i) (y, x)).

(** _se_image.py:155-157: the positions [(y_se, x_se)] of the table, where the
    sizes are those of [se_im_shape]. *)
Definition se_positions (dim_y dim_x delta : Z) : result (list (F * F)) :=
  ys <- mgrid_nodes (dim_y + delta) delta ;;
  xs <- mgrid_nodes (dim_x + delta) delta ;;
  Ok (map (fun p => (fsub (fofZ (fst p)) fhalf, fsub (fofZ (snd p)) fhalf)) (mgrid_pairs ys xs)).

(** _se_image.py:133-167 [_get_wcs_inverse], without its cache. [se_image2sky] and
    [sky2image] are the transformations of the two WCSs at one position. *)
Definition get_wcs_inverse (sky2image se_image2sky : F -> F -> F * F) (wcs_position_offset : F)
  (se_im_shape : Z * Z) (delta : Z) : result (inversion * inversion) :=
  pos <- se_positions (fst se_im_shape) (snd se_im_shape) delta ;;
  let y_se := map fst pos in
  let x_se := map snd pos in
  (* 159 *)
  let coadd := map (fun p => let s := se_image2sky (snd p) (fst p) in sky2image (fst s) (snd s)) pos in
  (* 161-162 *)
  let x_coadd := map (fun q => fsub (fst q) wcs_position_offset) coadd in
  let y_coadd := map (fun q => fsub (snd q) wcs_position_offset) coadd in
  (* 164-167 *)
  Ok (inversion_init x_coadd y_coadd x_se y_se, inversion_init x_se y_se x_coadd y_coadd).

(** _se_image.py:170-190 [_compute_wcs_area] at one position ([wrap_ra_diff] works
    element by element on arrays). [celestial] is the condition of line 177, [cos]
    is numpy's and [d2r] is [np.pi / 180.0]. [None]: [wrap_ra_diff] is still
    running after [fuel] steps. *)
Definition compute_wcs_area (image2sky : F -> F -> F * F) (celestial : bool) (cos : F -> F) (d2r : F)
  (fuel : nat) (x_se y_se dxy : F) : option F :=
  let '(_, dec) := image2sky x_se y_se in
  let '(ra_xp, dec_xp) := image2sky (fadd x_se dxy) y_se in
  let '(ra_xm, dec_xm) := image2sky (fsub x_se dxy) y_se in
  let '(ra_yp, dec_yp) := image2sky x_se (fadd y_se dxy) in
  let '(ra_ym, dec_ym) := image2sky x_se (fsub y_se dxy) in
  if celestial then
    let cosdec := cos (fmul dec d2r) in
    match wrap_ra_diff fuel (fsub ra_xp ra_xm), wrap_ra_diff fuel (fsub ra_yp ra_ym) with
    | Some wx, Some wy =>
        let mhalf := fdec (-1) 2 in
        let dudx := fmul (fmul (fdiv (fmul mhalf wx) dxy) cosdec) (fofZ 3600) in
        let dudy := fmul (fmul (fdiv (fmul mhalf wy) dxy) cosdec) (fofZ 3600) in
        let dvdx := fmul (fdiv (fmul fhalf (fsub dec_xp dec_xm)) dxy) (fofZ 3600) in
        let dvdy := fmul (fdiv (fmul fhalf (fsub dec_yp dec_ym)) dxy) (fofZ 3600) in
        Some (fabs (fsub (fmul dudx dvdy) (fmul dvdx dudy)))
    | _, _ => None
    end
  else
    let dudx := fdiv (fmul fhalf (fsub ra_xp ra_xm)) dxy in
    let dudy := fdiv (fmul fhalf (fsub ra_yp ra_ym)) dxy in
    let dvdx := fdiv (fmul fhalf (fsub dec_xp dec_xm)) dxy in
    let dvdy := fdiv (fmul fhalf (fsub dec_yp dec_ym)) dxy in
    Some (fabs (fsub (fmul dudx dvdy) (fmul dvdx dudy))).

(** _wcs_utils.py:103-104 [WCSGridScalarInterpolator]: the nodes in x and y and the
    values, first index x. *)
Record scalar_grid : Type := mk_scalar_grid {
  sg_x : list Z; sg_y : list Z; sg_values : img F
}.

(** _wcs_utils.py:106-131 [__call__] at one point; [spline] is scipy's
    RectBivariateSpline evaluated with [grid=False]. *)
Definition scalar_call (spline : list Z -> list Z -> img F -> F -> F -> F) (g : scalar_grid) (x y : F) : F :=
  spline (sg_x g) (sg_y g) (sg_values g) x y.

(** Positions still being wrapped make the whole array unfinished. *)
Fixpoint all_some {A} (l : list (option A)) : option (list A) :=
  match l with
  | [] => Some []
  | None :: _ => None
  | Some a :: l => match all_some l with Some l => Some (a :: l) | None => None end
  end.

(** _se_image.py:193-227 [_get_wcs_area_interp], without its cache; [area] is
    [_compute_wcs_area] with its default [dxy]. RectBivariateSpline (cubic) refuses
    fewer than four nodes in either direction. *)
Definition get_wcs_area_interp (area : F -> F -> option F) (se_im_shape : Z * Z) (delta : Z)
  (position_offset : F) : option (result scalar_grid) :=
  let '(dim_y, dim_x) := se_im_shape in
  match mgrid_nodes (dim_y + delta) delta, mgrid_nodes (dim_x + delta) delta with
  | Ok ys, Ok xs =>
      (* 215-218 *)
      let pos := map (fun p => (fsub (fofZ (fst p)) fhalf, fsub (fofZ (snd p)) fhalf))
                     (mgrid_pairs ys xs) in
      (* 220 *)
      match all_some (map (fun p => area (fadd (snd p) position_offset) (fadd (fst p) position_offset)) pos) with
      | None => None
      | Some flat =>
          (* 216, 221: reshape(shape).T *)
          let nx := Z.of_nat (length xs) in
          let ny := Z.of_nat (length ys) in
          let table := mkimg nx ny (fun i j => nth (Z.to_nat (j * nx + i)) flat fzero) in
          if (nx <? 4) || (ny <? 4) then Some (Raise OtherError)
          else Some (Ok (mk_scalar_grid xs ys table))
      end
  | Raise e, _ => Some (Raise e)
  | _, Raise e => Some (Raise e)
  end.
End WcsGrid.
Arguments inversion : clear implicits.
Arguments scalar_grid : clear implicits.
