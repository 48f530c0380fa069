(** C68: the object data describe the tiling. *)
From Coq Require Import ZArith List Bool Reals Lia.
From Verif Require Import Lib.Base Lib.Floats Spec.FloatSpec Model.Locate Model.ObjectData
  Spec.LocateSpec Spec.ObjectDataSpec Proofs.ObjectDataProofs.
Import ListNotations.
Open Scope Z_scope.

(** C68: there is one row per slice of the exact tiling, in row-major order,
    and row i describes slice i: id, sizes, start and centre in the coadd and
    in the stamp (all exact doubles), centre of the PSF image, and the sky
    position and Jacobian of the WCS at the centre. *)
Theorem C68_object_data_describe_the_slices :
  forall (image2sky : f64 -> f64 -> result (f64 * f64))
    (get_jacobian : f64 -> f64 -> result (f64 * f64 * f64 * f64))
    (central buffer width psf_box offset : Z) (objs : list object),
  0 < central <= 2 ^ 50 -> 0 <= buffer <= 2 ^ 50 -> 0 <= width <= 2 ^ 50 ->
  0 < psf_box <= 2 ^ 50 -> Z.abs offset <= 2 ^ 50 ->
  build_object_data image2sky get_jacobian central buffer width psf_box offset = Ok objs ->
  exists starts : list (Z * Z),
    tiles_exactly central buffer width starts /\ row_major starts /\
    (forall s, In s starts -> stamp_inside central buffer width s) /\
    length objs = length starts /\
    forall i s o, nth_error starts i = Some s -> nth_error objs i = Some o ->
      describes image2sky get_jacobian central buffer psf_box offset i s o.
Proof. exact object_data_ok. Qed.

(** C68: it succeeds for every geometry that tiles and every total WCS. *)
Theorem C68_succeeds :
  forall (image2sky : f64 -> f64 -> result (f64 * f64))
    (get_jacobian : f64 -> f64 -> result (f64 * f64 * f64 * f64))
    (central buffer width psf_box offset : Z),
  0 < central <= 2 ^ 50 -> 0 <= buffer <= 2 ^ 50 -> 0 <= width <= 2 ^ 50 ->
  (central | width - 2 * buffer) ->
  (forall x y, exists p, image2sky x y = Ok p) -> (forall x y, exists p, get_jacobian x y = Ok p) ->
  exists objs, build_object_data image2sky get_jacobian central buffer width psf_box offset = Ok objs.
Proof. exact object_data_total. Qed.

(** C68: the only other outcomes are the refusal of a geometry that does not
    tile and an exception of the WCS. *)
Theorem C68_fails_only_for_a_reason :
  forall (image2sky : f64 -> f64 -> result (f64 * f64))
    (get_jacobian : f64 -> f64 -> result (f64 * f64 * f64 * f64))
    (central buffer width psf_box offset : Z) (e : pyexc),
  0 < central <= 2 ^ 50 -> 0 <= buffer <= 2 ^ 50 -> 0 <= width <= 2 ^ 50 ->
  build_object_data image2sky get_jacobian central buffer width psf_box offset = Raise e ->
  (~ (central | width - 2 * buffer) /\ e = ValueError) \/
  exists x y, image2sky x y = Raise e \/ get_jacobian x y = Raise e.
Proof. exact object_data_raises. Qed.

(** Width of the coadd: the uncompressed width when the header has one. *)
Theorem C68_width_from_the_header :
  (forall z n, get_image_width (Some z) n = Ok z) /\
  (forall n, get_image_width None (Some n) = Ok n) /\
  get_image_width None None = Raise KeyError.
Proof. repeat split. Qed.

(** Concrete: a 2 x 2 tiling of a 10 pixel wide coadd, with the identity as
    sky coordinates. The last row is slice 3 at row 4, column 4. *)
Example C68_example :
  match build_object_data (F := f64) (fun x y => Ok (x, y)) (fun x y => Ok (x, y, y, x)) 4 1 10 5 1 with
  | Ok [_; _; _; o] => (ob_id o =? 3) && (ob_box_size o =? 6) &&
        feqb (ob_ra o) (fdec 75 10) && feqb (ob_orig_start_row o) (fofZ 4) &&
        feqb (ob_cutout_row o) (fdec 25 10) && feqb (ob_psf_cutout_row o) (fofZ 2)
  | _ => false
  end = true.
Proof. vm_compute. reflexivity. Qed.

Print Assumptions C68_object_data_describe_the_slices.
Print Assumptions C68_succeeds.
Print Assumptions C68_fails_only_for_a_reason.
Print Assumptions C68_width_from_the_header.
