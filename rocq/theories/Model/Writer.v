(** Model of the writing of results in _pizza_cutter.py: _reserve_images,
    _write_single_image and _process_results. *)
From Coq Require Import ZArith Bool String List.
From Verif Require Import Lib.Base Lib.PyStr Lib.Floats.
Import ListNotations.
Open Scope string_scope.
Open Scope list_scope.
Open Scope Z_scope.

(** Names of the extensions, _constants.py:26-33. *)
Definition IMAGE_EXT : string := "image_cutouts".
Definition WEIGHT_EXT : string := "weight_cutouts".
Definition SEG_EXT : string := "seg_cutouts".
Definition BMASK_EXT : string := "bmask_cutouts".
Definition ORMASK_EXT : string := "ormask_cutouts".
Definition NOISE_EXT : string := "noise_cutouts".
Definition MFRAC_EXT : string := "mfrac_cutouts".
Definition PSF_EXT : string := "psf".

(** "noise%d_cutouts" % i *)
Definition noise_ext (i : Z) : string := ("noise" ++ dec i ++ "_cutouts")%string.

Section Writer.
Context {F : Type} {FO : FloatOps F}.
Variable V : Type.                       (* pixel values *)
Variable zero : V.                       (* what cfitsio puts in a new image *)
Variable cast : string -> V -> V.        (* conversion to the dtype of an extension *)
Variable isneg : V -> bool.              (* value < 0; false for NaN *)
Variable E : Type.                       (* epochs_info array of one slice *)

(** One-dimensional image extension. *)
Record hdu : Type := mk_hdu { dim : Z; dat : Z -> V }.

(** The image extensions of the open file, by name. *)
Definition fits : Type := string -> option hdu.

Definition set_hdu (f : fits) (ext : string) (h : hdu) : fits :=
  fun e => if String.eqb ext e then Some h else f e.

(** fits.create_image_hdu(img=None, dims=d, extname=ext): an image of zeros.
    Compression parameters only change headers and are not modelled. *)
Definition create (f : fits) (ext : string) (d : Z) : fits :=
  set_hdu f ext (mk_hdu d (fun _ => zero)).

(** _reserve_images, _pizza_cutter.py:686-732 *)
Definition reserve_names (n_extra : Z) : list string :=
  [IMAGE_EXT; WEIGHT_EXT; SEG_EXT; BMASK_EXT; ORMASK_EXT; NOISE_EXT; MFRAC_EXT] ++
  map (fun i => noise_ext (i + 1)) (zrange 0 n_extra).

Definition reserve_images (f : fits) (n_pixels n_pixels_psf n_extra : Z) : fits :=
  create (fold_left (fun f ext => create f ext n_pixels) (reserve_names n_extra) f)
         PSF_EXT n_pixels_psf.

(** hdu.write(subim, start): the flattened array at an offset; outside the
    image is an error of cfitsio. *)
Definition hdu_write (h : hdu) (a : img V) (start : Z) : result hdu :=
  let n := nrows a * ncols a in
  if (start <? 0) || (dim h <? start + n) then Raise IOError
  else Ok (mk_hdu (dim h)
    (fun p => if (start <=? p) && (p <? start + n)
              then px a ((p - start) / ncols a) ((p - start) mod ncols a)
              else dat h p)).

(** _write_single_image, _pizza_cutter.py:735-746. The default value that
    subim is first filled with is overwritten by subim[:, :] = data. *)
Definition write_single_image (f : fits) (data : img V) (ext : string) (start_row : Z)
  (ext_info : option string) : result fits :=
  let info := match ext_info with None => ext | Some e => e end in
  let subim := imap (cast info) data in
  if (String.eqb ext MFRAC_EXT || String.eqb ext WEIGHT_EXT) && np_any (imap isneg subim)
  then Raise RuntimeError
  else
    match f ext with
    | None => Raise IOError
    | Some h => h' <- hdu_write h subim start_row ;; Ok (set_hdu f ext h')
    end.

(** What _coadd_single_slice returns, _pizza_cutter.py:296-414. The fields
    after [r_weights] are only there when there are weights. *)
Record results : Type := mk_results {
  r_i : Z;
  r_epochs : E;
  r_weights : list F;
  r_image : img V;
  r_bmask : img V;
  r_ormask : img V;
  r_noises : list (img V);
  r_weight : img V;
  r_mfrac : img V;
  r_psf : img V;
  r_psf_sigma : F
}.

(** The columns of object_data that are set during processing. *)
Record obj : Type := mk_obj {
  o_ncutout : Z;
  o_nepoch : Z;
  o_nepoch_eff : F;
  o_psf_sigma : F;
  o_start_row : Z;
  o_psf_start_row : Z
}.

Record out : Type := mk_out {
  o_fits : fits;
  o_num : Z;                  (* len(object_data) *)
  o_obj : Z -> obj;
  o_epochs : list E
}.

(** weights.max() *)
Definition lmaxF (l : list F) : F :=
  match l with
  | [] => fzero
  | x :: t => fold_left (fun m y => fmax m y) t x
  end.

Definition set_obj (o : Z -> obj) (i : Z) (v : obj) : Z -> obj :=
  fun j => if j =? i then v else o j.

(** The images of a slice, in the order in which they are written, with the
    extension whose dtype they use: _pizza_cutter.py:462-495. *)
Definition extra_noises (r : results) : list (string * option string * img V) :=
  map (fun k => (noise_ext k, Some NOISE_EXT, nth (Z.to_nat k) (r_noises r) (r_image r)))
      (zrange 1 (Z.of_nat (length (r_noises r)))).

Definition images_of (r : results) : result (list (string * option string * img V)) :=
  n0 <- pynth (r_noises r) 0 ;;
  Ok ([(IMAGE_EXT, None, r_image r); (BMASK_EXT, None, r_bmask r);
       (ORMASK_EXT, None, r_ormask r); (NOISE_EXT, None, n0)] ++
      (if 1 <? Z.of_nat (length (r_noises r)) then extra_noises r else []) ++
      [(WEIGHT_EXT, None, r_weight r); (MFRAC_EXT, None, r_mfrac r)]).

(** _process_results, _pizza_cutter.py:446-504 *)
Definition process_results (o : out) (r : results) (start_row psf_start_row : Z) : result out :=
  match pyindex (o_num o) (r_i r) with
  | None => Raise IndexError
  | Some k =>
      let epochs := o_epochs o ++ [r_epochs r] in
      match r_weights r with
      | [] =>
          let b := o_obj o k in
          Ok (mk_out (o_fits o) (o_num o)
                (set_obj (o_obj o) k
                   (mk_obj (o_ncutout b) 0 fzero (o_psf_sigma b) (o_start_row b) (o_psf_start_row b)))
                epochs)
      | _ =>
          imgs <- images_of r ;;
          f <- fold_left (fun acc im =>
                 f <- acc ;;
                 let '(ext, info, a) := im in
                 write_single_image f a ext start_row info) imgs (Ok (o_fits o)) ;;
          f <- write_single_image f (r_psf r) PSF_EXT psf_start_row None ;;
          Ok (mk_out f (o_num o)
                (set_obj (o_obj o) k
                   (mk_obj 1 (Z.of_nat (length (r_weights r)))
                      (fdiv (fsum (r_weights r)) (lmaxF (r_weights r)))
                      (r_psf_sigma r) start_row psf_start_row))
                epochs)
      end
  end.

(** The call made for each result, _pizza_cutter.py:611-618 and 635-642:
    [npix] and [npix_psf] are the squares of the first box sizes. *)
Definition process_one (npix npix_psf : Z) (o : out) (r : results) : result out :=
  process_results o r (r_i r * npix) (r_i r * npix_psf).

(** Initial state of the output, _pizza_cutter.py:540-547. All objects have
    the same box size, see _build_object_data (_pizza_cutter.py:876-879). *)
Definition init_out (num box psf_box n_extra : Z) (obj0 : Z -> obj) : out :=
  mk_out (reserve_images (fun _ => None) (num * box ^ 2) (num * psf_box ^ 2) n_extra)
         num obj0 [].

Fixpoint process_all (npix npix_psf : Z) (o : out) (rs : list results) : result out :=
  match rs with
  | [] => Ok o
  | r :: rest => o1 <- process_one npix npix_psf o r ;; process_all npix npix_psf o1 rest
  end.

End Writer.
