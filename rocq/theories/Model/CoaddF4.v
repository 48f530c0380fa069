(** [_coadd_slice_inputs] (_coadd_slices.py:553-710) once more, with arrays of the dtype of
    the images. Model/Coadd.v is the case of images of doubles; images of dtype 'f4', as
    fitsio reads them from a file with BITPIX = -32, stay 'f4' when they are scaled. The
    resampled images are doubles (_lanczos.py:44, 127-128), so [image += data * weight]
    computes a double that is stored with the dtype of [image] (634-648). *)
From Coq Require Import ZArith List Bool String.
From Verif Require Import Lib.Base Lib.Floats Lib.Float32 Model.Coadd Model.SingleSlice.
From Coq Require Import List.
Import ListNotations.
Open Scope Z_scope.

Section CoaddAs.
Context {F : Type} `{FloatOps F} {S : Type}.
Variable store : F -> F.              (* conversion to the dtype of the images *)
Variable inverse_variance : list F -> F.  (* [1.0 / np.var(a)] for an array of that dtype *)

(** [acc += data * weight]. *)
Definition add_scaled_as (acc data : img F) (weight : F) : img F :=
  imap store (add_scaled acc data weight).

(** 681-682 *)
Fixpoint add_noises_as (acc data : list (img F)) (weight : F) : result (list (img F)) :=
  match acc, data with
  | [], _ => Ok []
  | a :: acc, d :: data =>
      rest <- add_noises_as acc data weight ;;
      Ok (add_scaled_as a d weight :: rest)
  | _ :: _, [] => Raise IndexError
  end.

(** 678-696, one image. *)
Definition coadd_step_as (acc : coadd) (res : resampled) (weight : F) : result coadd :=
  noises <- add_noises_as (co_noises acc) (rs_noises res) weight ;;
  Ok (mkcoadd
        (add_scaled_as (co_image acc) (rs_image res) weight)
        (imap2 Z.lor (co_bmask acc) (rs_pmask res))
        (imap2 Z.lor (co_ormask acc) (rs_bmask res))
        noises
        (add_scaled_as (co_psf acc) (imap finite_or_zero (rs_psf res)) weight)
        (add_scaled_as (co_mfrac acc) (imap clip01 (rs_interp_frac res)) weight)).

(** 652-696 *)
Fixpoint coadd_loop_as (resample : S -> result resampled) (l : list (S * F)) (acc : coadd)
  : result (coadd * list resampled) :=
  match l with
  | [] => Ok (acc, [])
  | (s, weight) :: l =>
      res <- resample s ;;
      acc <- coadd_step_as acc res weight ;;
      '(acc, rest) <- coadd_loop_as resample l acc ;;
      Ok (acc, res :: rest)
  end.

(** 627-710; the weights are an array of doubles. *)
Definition coadd_slice_inputs_as (resample : S -> result resampled)
  (box_size psf_box_size : Z) (slices : list S) (weights : list F)
  (n_extra_noise_images : nat) : result (coadd * img F * list resampled) :=
  let weights := map (fun w => fdiv w (fsum weights)) weights in
  if negb (Nat.eqb (length slices) (length weights)) then Raise AssertionError else
  match slices with
  | [] => Raise IndexError
  | _ :: _ =>
      let zero := full box_size box_size fzero in
      let izero := full box_size box_size 0 in
      let start := mkcoadd zero izero izero
                     (repeat zero (Datatypes.S n_extra_noise_images))
                     (full psf_box_size psf_box_size fzero) zero in
      '(out, datas) <- coadd_loop_as resample (combine slices weights) start ;;
      match co_noises out with
      | [] => Raise IndexError
      | n0 :: _ =>
          let weight := full (nrows n0) (ncols n0) (store (inverse_variance (ravel n0))) in
          Ok (out, weight, datas)
      end
  end.
End CoaddAs.

(** [1.0 / np.var(a)] for an array of dtype 'f4': numpy computes it in single precision. *)
Definition inverse_variance_single (l : list f64) : f64 :=
  @fdiv f64 F32Ops (@fone f64 F32Ops) (@variance f64 F32Ops l).

(** Images of dtype 'f4'. *)
Definition coadd_slice_inputs_single {S : Type} (resample : S -> result resampled)
  (box_size psf_box_size : Z) (slices : list S) (weights : list f64) (nextra : nat) :=
  coadd_slice_inputs_as to_single inverse_variance_single resample box_size psf_box_size slices weights nextra.

(** The dtypes of the extensions, CUTOUT_DTYPES in _constants.py:33-42. *)
Inductive dtype := F4 | I4.

Definition CUTOUT_DTYPES (ext_info : string) : option dtype :=
  if String.eqb ext_info "image_cutouts" then Some F4
  else if String.eqb ext_info "weight_cutouts" then Some F4
  else if String.eqb ext_info "seg_cutouts" then Some I4
  else if String.eqb ext_info "bmask_cutouts" then Some I4
  else if String.eqb ext_info "ormask_cutouts" then Some I4
  else if String.eqb ext_info "noise_cutouts" then Some F4
  else if String.eqb ext_info "psf" then Some F4
  else if String.eqb ext_info "mfrac_cutouts" then Some F4
  else None.

(** An integer as a 32 bit integer: modulo 2^32. *)
Definition to_i4 (z : Z) : Z := (z + 2 ^ 31) mod 2 ^ 32 - 2 ^ 31.

(** [subim[:, :] = data] in _write_single_image, _pizza_cutter.py:739-741: the [cast] of
    Model/Writer.v. A float that does not fit an integer becomes -2^31, as on x86; no
    extension is written that way. *)
Definition store_as (ext_info : string) (p : @pixel f64) : @pixel f64 :=
  match CUTOUT_DTYPES ext_info, p with
  | Some F4, PF x => PF (to_single x)
  | Some F4, PI z => PF (to_single (f64_ofZ z))
  | Some I4, PI z => PI (to_i4 z)
  | Some I4, PF x =>
      PI (match f64_trunc x with
          | Some z => if (- 2 ^ 31 <=? z) && (z <? 2 ^ 31) then z else - 2 ^ 31
          | None => - 2 ^ 31
          end)
  | None, p => p
  end.

(** [subim < 0], _pizza_cutter.py:743. *)
Definition negative (p : @pixel f64) : bool :=
  match p with PF x => fltb x fzero | PI z => z <? 0 end.
