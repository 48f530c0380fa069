(** Model of pizza_cutter/des_pizza_cutter/_coadd_slices.py:553-710
    ([_coadd_slice_inputs]) and of the epoch counters written by
    _pizza_cutter.py:446-504 ([_process_results]).

    Resampling one image ([SEImageSlice.resample]) is an argument here; it is
    modelled in Model/Resample.v. Arrays are not tied to 32 bits: the code
    accumulates in the dtype of the image. Model/CoaddF4.v is the case of float32. *)
From Coq Require Import ZArith List Bool.
From Verif Require Import Lib.Base Lib.Floats.
Import ListNotations.
Open Scope Z_scope.

Section Coadd.
Context {F : Type} `{FloatOps F} {S : Type}.

(** The dictionary returned by [resample] (_se_image.py:1579-1591). *)
Record resampled := mkres {
  rs_image : img F;
  rs_noises : list (img F);
  rs_interp_frac : img F;
  rs_psf : img F;
  rs_bmask : img Z;
  rs_pmask : img Z
}.

Record coadd := mkcoadd {
  co_image : img F;
  co_bmask : img Z;
  co_ormask : img Z;
  co_noises : list (img F);
  co_psf : img F;
  co_mfrac : img F
}.

(** [acc += data * weight]. *)
Definition add_scaled (acc data : img F) (weight : F) : img F :=
  imap2 fadd acc (imap (fun x => fmul x weight) data).

(** 681-682: [noises[i] += resampled_data['noises'][i] * weight]. *)
Fixpoint add_noises (acc data : list (img F)) (weight : F) : result (list (img F)) :=
  match acc, data with
  | [], _ => Ok []
  | a :: acc, d :: data =>
      rest <- add_noises acc data weight ;;
      Ok (add_scaled a d weight :: rest)
  | _ :: _, [] => Raise IndexError
  end.

(** 685-686: [np.clip(np.abs(x), 0.0, 1.0)]; a NaN stays a NaN. *)
Definition clip01 (x : F) : F :=
  let x := fabs x in
  if fltb x fzero then fzero else if fltb fone x then fone else x.

(** 690-692. *)
Definition finite_or_zero (x : F) : F := if negb (ffinite x) then fzero else x.

(** 678-696, one image. *)
Definition coadd_step (acc : coadd) (res : resampled) (weight : F) : result coadd :=
  noises <- add_noises (co_noises acc) (rs_noises res) weight ;;
  Ok (mkcoadd
        (add_scaled (co_image acc) (rs_image res) weight)
        (imap2 Z.lor (co_bmask acc) (rs_pmask res))
        (imap2 Z.lor (co_ormask acc) (rs_bmask res))
        noises
        (add_scaled (co_psf acc) (imap finite_or_zero (rs_psf res)) weight)
        (add_scaled (co_mfrac acc) (imap clip01 (rs_interp_frac res)) weight)).

(** 652-696, the loop over the images; the resampled data are kept. *)
Fixpoint coadd_loop (resample : S -> result resampled) (l : list (S * F)) (acc : coadd)
  : result (coadd * list resampled) :=
  match l with
  | [] => Ok (acc, [])
  | (s, weight) :: l =>
      res <- resample s ;;
      acc <- coadd_step acc res weight ;;
      '(acc, rest) <- coadd_loop resample l acc ;;
      Ok (acc, res :: rest)
  end.

(** [np.var]: mean of the squared deviations, both sums with [np.sum]. *)
Definition mean (l : list F) : F := fdiv (fsum l) (fofZ (Z.of_nat (length l))).
Definition variance (l : list F) : F :=
  let m := mean l in
  mean (map (fun x => let d := fsub x m in fmul d d) l).

(** 627-710. *)
Definition coadd_slice_inputs (resample : S -> result resampled)
  (box_size psf_box_size : Z) (slices : list S) (weights : list F)
  (n_extra_noise_images : nat) : result (coadd * img F * list resampled) :=
  (* 628 *)
  let weights := map (fun w => fdiv w (fsum weights)) weights in
  (* 631-632 *)
  if negb (Nat.eqb (length slices) (length weights)) then Raise AssertionError else
  (* 634: se_image_slices[0] *)
  match slices with
  | [] => Raise IndexError
  | _ :: _ =>
      let zero := full box_size box_size fzero in
      let izero := full box_size box_size 0 in
      let start := mkcoadd zero izero izero
                     (repeat zero (Datatypes.S n_extra_noise_images))
                     (full psf_box_size psf_box_size fzero) zero in
      '(out, datas) <- coadd_loop resample (combine slices weights) start ;;
      (* 698-699 *)
      match co_noises out with
      | [] => Raise IndexError
      | n0 :: _ =>
          let weight := full (nrows n0) (ncols n0) (fdiv fone (variance (ravel n0))) in
          Ok (out, weight, datas)
      end
  end.

(** _pizza_cutter.py:454-459 and 502-504: [ncutout], [nepoch] and
    [nepoch_eff]. (An entry that is not written stays 0; the weights are not
    NaN here.) *)
Definition amax (l : list F) : F :=
  match l with [] => fzero | x :: l => fold_left fmax l x end.

Definition epoch_counts (weights : list F) : Z * Z * F :=
  match weights with
  | [] => (0, 0, fzero)
  | _ => (1, Z.of_nat (length weights), fdiv (fsum weights) (amax weights))
  end.

End Coadd.
