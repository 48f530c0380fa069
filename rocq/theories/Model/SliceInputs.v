(** Model of pizza_cutter/des_pizza_cutter/_coadd_slices.py:28-550
    ([_build_coadd_weight] and [_build_slice_inputs]), of
    slice_utils/procflags.py and of _pizza_cutter.py:759-829
    ([_make_epochs_info]).

    What a single-epoch image answers to the calls made here
    ([ccd_contains_radec], [compute_slice_bounds] + [ccd_contains_bounds],
    [set_slice], [set_psf]) is recorded in [se_source]; those methods are
    modelled in Model/SeImage.v, Model/PsfImage.v and Model/Piff.v. Arrays are not tied to
    32 bits and log messages are left out. *)
From Coq Require Import ZArith List Bool String.
From Coq Require Import List.
From Verif Require Import Lib.Base Lib.Floats Model.Flag Model.Symmetrize Model.Interp.
Import ListNotations.
Open Scope list_scope.
Open Scope Z_scope.

(** procflags.py:1-14. *)
Definition FULL_EDGE_MASKED : Z := 2 ^ 0.
Definition SLICE_HAS_FLAGS : Z := 2 ^ 1.
Definition HIGH_MASKED_FRAC : Z := 2 ^ 2.
Definition HIGH_INTERP_MASKED_FRAC : Z := 2 ^ 4.
Definition BAD_PSF_MODEL : Z := 2 ^ 5.

(** _constants.py:3-4. *)
Definition BMASK_NOISE_INTERP : Z := 2 ^ 28.
Definition BMASK_SPLINE_INTERP : Z := 2 ^ 27.

Section SliceInputs.
Context {F : Type} `{FloatOps F} {RNG : Type}.

(** External functions: scipy.ndimage.rotate, [rng.normal(size=n) * s] (not
    reached from here: no isolated pixels are filled), [rng.normal(size=(nr, nc))],
    the scipy interpolator, np.median, [measure_fwhm] (Model/Fwhm.v) and
    meds.reject_outliers, which changes the pixels of the k-th image and weight
    map in place. *)
Context (rotate : F -> img F -> img F).
Context (normal : RNG -> nat -> F -> list F * RNG).
Context (normal2 : RNG -> Z -> Z -> (Z -> Z -> F) * RNG).
Context (interpolator : list (Z * Z) -> list F -> result (Z * Z -> F)).
Context (median : list F -> F).
Context (measure_fwhm : img F -> F).
Context (outliers : list (img F) -> list (img F) -> nat -> (Z -> Z -> F) * (Z -> Z -> F)).

(** The attributes of an SEImageSlice that matter here, after [set_slice] and
    [set_psf] (_se_image.py:661-724, 1225-1283). *)
Record se_slice := mkslice {
  sl_image_id : Z;
  sl_x_start : Z;
  sl_y_start : Z;
  sl_box_size : Z;
  sl_image : img F;
  sl_weight : img F;
  sl_bmask : img Z;
  sl_noises : list (img F);
  sl_psf : img F;
  sl_psf_x_start : Z;
  sl_psf_y_start : Z;
  sl_psf_box_size : Z
}.

(** Further attributes set by [set_interp_image_noise_pmask]. *)
Record used_slice := mkused {
  u_slice : se_slice;
  u_pmask : img Z;
  u_interp_frac : img F;
  u_orig_image : img F;
  u_interp_only_image : img F
}.

Definition set_masks (s : se_slice) (w : img F) (b : img Z) : se_slice :=
  mkslice (sl_image_id s) (sl_x_start s) (sl_y_start s) (sl_box_size s) (sl_image s) w b
    (sl_noises s) (sl_psf s) (sl_psf_x_start s) (sl_psf_y_start s) (sl_psf_box_size s).

Definition set_pixels (s : se_slice) (im w : img F) : se_slice :=
  mkslice (sl_image_id s) (sl_x_start s) (sl_y_start s) (sl_box_size s) im w (sl_bmask s)
    (sl_noises s) (sl_psf s) (sl_psf_x_start s) (sl_psf_y_start s) (sl_psf_box_size s).

(** _se_image.py:1285-1308 [set_interp_image_noise_pmask]. *)
Definition set_interp_image_noise_pmask (s : se_slice) (interp_image : img F)
  (interp_noises : list (img F)) (mask : img Z) : used_slice :=
  let msk := imap (fun m => negb (m =? 0)) mask in
  mkused
    (mkslice (sl_image_id s) (sl_x_start s) (sl_y_start s) (sl_box_size s) interp_image
       (sl_weight s) (sl_bmask s) interp_noises (sl_psf s) (sl_psf_x_start s)
       (sl_psf_y_start s) (sl_psf_box_size s))
    mask
    (where_set (full (nrows (sl_image s)) (ncols (sl_image s)) fzero) msk fone)
    (sl_image s)
    (where_set interp_image (imap negb msk) fzero).

(** What one entry of [se_src_info] answers. *)
Record se_source := mksource {
  src_image_flags : Z;
  src_contains_radec : bool;
  src_contains_bounds : bool;
  src_slice : result se_slice;
  src_psf_flag : bool
}.

Inductive symmetrize_option : Type :=
| SymOff
| SymOnce
| SymAngles (angles : list F).

Record config := mkconfig {
  cf_reject_outliers : bool;
  cf_symmetrize : symmetrize_option;
  cf_coadding_weight : string;
  cf_copy_masked_edges : bool;
  cf_noise_flags : Z;
  cf_spline_flags : Z;
  cf_bad_image_flags : Z;
  cf_max_masked_fraction : F
}.

(** [np.max] of the values of an array: ValueError if there are none, NaN if
    there is one. *)
Definition np_max (l : list F) : result F :=
  match l with
  | [] => Raise ValueError
  | x :: l =>
      Ok (fold_left (fun m y => if fnan m then m
                                else if fnan y || fltb m y then y else m) l x)
  end.

(** _coadd_slices.py:28-42 [_build_coadd_weight]. *)
Definition build_coadd_weight (coadding_weight : string) (weight psf : img F) : result F :=
  if String.eqb coadding_weight "noise" then np_max (ravel weight)
  else if String.eqb coadding_weight "noise-fwhm" then
    wt <- np_max (ravel weight) ;;
    let fwhm := measure_fwhm psf in
    Ok (fdiv wt (fmul (fmul fwhm fwhm) (fmul fwhm fwhm)))
  else Raise ValueError.

(** _coadd_slices.py:214-263, the rough cut. *)
Fixpoint rough_cut (srcs : list se_source) : result (list (se_slice * bool)) :=
  match srcs with
  | [] => Ok []
  | s :: srcs =>
      if (src_image_flags s =? 0) && src_contains_radec s && src_contains_bounds s then
        sl <- src_slice s ;;
        rest <- rough_cut srcs ;;
        Ok ((sl, src_psf_flag s) :: rest)
      else rough_cut srcs
  end.

(** _coadd_slices.py:273-278: pixels of all images and weight maps, in place. *)
Fixpoint put_pixels (k : nat) (new : nat -> (Z -> Z -> F) * (Z -> Z -> F))
  (l : list (se_slice * bool)) : list (se_slice * bool) :=
  match l with
  | [] => []
  | (s, p) :: l =>
      (set_pixels s
         (mkimg (nrows (sl_image s)) (ncols (sl_image s)) (fst (new k)))
         (mkimg (nrows (sl_weight s)) (ncols (sl_weight s)) (snd (new k))), p)
      :: put_pixels (S k) new l
  end.

Definition reject_outliers (l : list (se_slice * bool)) : list (se_slice * bool) :=
  put_pixels 0 (outliers (map (fun sp => sl_image (fst sp)) l)
                         (map (fun sp => sl_weight (fst sp)) l)) l.

(** _coadd_slices.py:322-339: one angle of the list; the original masks are
    rotated, the result is accumulated in the slice. *)
Fixpoint sym_angles (weight_orig : img F) (bmask_orig : img Z) (bad_flags : Z)
  (gaia : option (img bool)) (angles : list F) (w : img F) (b : img Z)
  : result (img F * img Z) :=
  match angles with
  | [] => Ok (w, b)
  | a :: angles =>
      weight_r <- symmetrize_weight rotate weight_orig (Some a) gaia ;;
      let w := where_set w (imap (fun x => feqb x fzero) weight_r) fzero in
      bmask_r <- symmetrize_bmask rotate bmask_orig (Some a) gaia (Some bad_flags) ;;
      sym_angles weight_orig bmask_orig bad_flags gaia angles w (imap2 Z.lor b bmask_r)
  end.

(** _coadd_slices.py:317-350. *)
Definition symmetrize_slice (cf : config) (gaia : option (img bool)) (s : se_slice)
  : result se_slice :=
  let bad_flags := Z.lor (cf_spline_flags cf) (cf_noise_flags cf) in
  match cf_symmetrize cf with
  | SymOff => Ok s
  | SymOnce =>
      b <- symmetrize_bmask rotate (sl_bmask s) None gaia (Some bad_flags) ;;
      w <- symmetrize_weight rotate (sl_weight s) None gaia ;;
      Ok (set_masks s w b)
  | SymAngles angles =>
      '(w, b) <- sym_angles (sl_weight s) (sl_bmask s) bad_flags gaia angles
                   (sl_weight s) (sl_bmask s) ;;
      Ok (set_masks s w b)
  end.

(** _coadd_slices.py:405-436: the noise interpolation of the image and the
    noise fields, in this order. *)
Definition noise_fill_one (se_wgt : img F) (msk : img bool) (a : img F) (rng : RNG)
  : img F * RNG :=
  let '(draw, rng) := normal2 rng (nrows se_wgt) (ncols se_wgt) in
  (mkimg (nrows a) (ncols a)
     (fun r c => if px msk r c
                 then fmul (draw r c) (fsqrt (fdiv fone (px se_wgt r c)))
                 else px a r c), rng).

Fixpoint noise_fill_all (se_wgt : img F) (msk : img bool) (l : list (img F)) (rng : RNG)
  : list (img F) * RNG :=
  match l with
  | [] => ([], rng)
  | a :: l =>
      let '(a, rng) := noise_fill_one se_wgt msk a rng in
      let '(l, rng) := noise_fill_all se_wgt msk l rng in
      (a :: l, rng)
  end.

Definition b2f (b : bool) : F := if b then fone else fzero.

Definition noise_interp (cf : config) (s : se_slice) (rng : RNG)
  : result (img F * list (img F) * img Z * RNG) :=
  let pmask := full (nrows (sl_bmask s)) (ncols (sl_bmask s)) 0 in
  let msk := imap (fun b => negb (Z.land b (cf_noise_flags cf) =? 0)) (sl_bmask s) in
  if np_any msk then
    let w := sl_weight s in
    let zmsk := imap (fun x => fleb x fzero) w in
    mx <- np_max (map (fun rc => px w (fst rc) (snd rc)) (true_pix (imap negb zmsk))) ;;
    let se_wgt := imap2 (fun (x : F) (z : bool) => fadd (fmul x (b2f (negb z))) (fmul mx (b2f z))) w zmsk in
    let '(im, rng) := noise_fill_one se_wgt msk (sl_image s) rng in
    let '(ns, rng) := noise_fill_all se_wgt msk (sl_noises s) rng in
    Ok (im, ns, imap2 (fun (p : Z) (m : bool) => if m then Z.lor p BMASK_NOISE_INTERP else p) pmask msk, rng)
  else Ok (sl_image s, sl_noises s, pmask, rng).

(** [a != b] elementwise (a NaN differs from everything). *)
Definition img_neq (a b : img F) : img bool :=
  imap2 (fun x y : F => negb (feqb x y)) a b.

(** [for i in range(len(l)): msk = msk | (new[i] != l[i])]
    (_coadd_slices.py:449-450, 499-500). *)
Fixpoint or_changed (msk : img bool) (l new : list (img F)) : result (img bool) :=
  match l, new with
  | [], _ => Ok msk
  | a :: l, b :: new => or_changed (imap2 orb msk (img_neq b a)) l new
  | _ :: _, [] => Raise IndexError
  end.

(** [pmask[msk] |= BMASK_SPLINE_INTERP]. *)
Definition mark_spline (pmask : img Z) (msk : img bool) : img Z :=
  imap2 (fun (p : Z) (m : bool) => if m then Z.lor p BMASK_SPLINE_INTERP else p) pmask msk.

(** _coadd_slices.py:507-515. *)
Definition pmask_fraction (gaia : option (img bool)) (pmask : img Z) : F :=
  let msk := imap (fun p => negb (p =? 0)) pmask in
  match gaia with
  | Some g =>
      if np_all g then fone
      else fdiv (fofZ (np_count (imap2 andb msk (imap negb g))))
                (fofZ (np_count (imap negb g)))
  | None => fdiv (fofZ (np_count msk)) (fofZ (isize msk))
  end.

Inductive verdict : Type :=
| Used (u : used_slice) (weight : F)
| NotUsed (s : se_slice) (flags : Z).

(** _coadd_slices.py:287-543, the loop body. [gaia] is the coadd star mask
    mapped to the single-epoch image, if there is one (305-315). The two
    [continue] statements and the fall-through all return the verdict; the
    random state is the one left behind. *)
Definition process_slice (cf : config) (map_gaia : option (se_slice -> result (img bool)))
  (s : se_slice) (psf_flag : bool) (rng : RNG) : result (verdict * RNG) :=
  let bad_flags := Z.lor (cf_spline_flags cf) (cf_noise_flags cf) in
  gaia <- (match map_gaia with
           | Some f => (g <- f s ;; Ok (Some g))
           | None => Ok None
           end) ;;
  s <- symmetrize_slice cf gaia s ;;
  (* 352-368 *)
  skip_edge_masked <-
    (if negb (cf_copy_masked_edges cf)
     then slice_full_edge_masked (sl_weight s) (sl_bmask s) (cf_spline_flags cf)
     else Ok false) ;;
  let skip_has_flags := slice_has_flags (sl_bmask s) (cf_bad_image_flags cf) in
  let skip_masked_fraction :=
    fleb (cf_max_masked_fraction cf)
         (compute_masked_fraction (sl_weight s) (sl_bmask s) bad_flags gaia) in
  if skip_edge_masked || skip_has_flags || skip_masked_fraction || psf_flag then
    (* 377-403 *)
    let flags := 0 in
    let flags := if skip_edge_masked then Z.lor flags FULL_EDGE_MASKED else flags in
    let flags := if skip_has_flags then Z.lor flags SLICE_HAS_FLAGS else flags in
    let flags := if skip_masked_fraction then Z.lor flags HIGH_MASKED_FRAC else flags in
    let flags := if psf_flag then Z.lor flags BAD_PSF_MODEL else flags in
    Ok (NotUsed s flags, rng)
  else
    (* 405-436 *)
    '(interp_image, interp_noises, pmask, rng) <- noise_interp cf s rng ;;
    (* 439-470 *)
    '(interp_image, interp_noises, interp_weight, interp_bmask, pmask, skip) <-
      (if cf_copy_masked_edges cf then
         es <- copy_masked_edges_image_and_noise interp_image interp_noises (sl_weight s)
                 (sl_bmask s) (cf_spline_flags cf) ;;
         msk <- or_changed (img_neq interp_image (es_image es)) interp_noises (es_noises es) ;;
         skip <- slice_full_edge_masked (es_weight es) (es_bmask es) (cf_spline_flags cf) ;;
         Ok (es_image es, es_noises es, es_weight es, es_bmask es, mark_spline pmask msk, skip)
       else Ok (interp_image, interp_noises, sl_weight s, sl_bmask s, pmask, false)) ;;
    if (skip : bool) then Ok (NotUsed s FULL_EDGE_MASKED, rng) else
    (* 476-492: rng=None, maxfrac=0.9, buff=4, fill_isolated_with_noise=False, iso_buff=1 *)
    '(out, _) <- interpolate_image_and_noise normal interpolator median interp_image
                   interp_noises interp_weight interp_bmask (cf_spline_flags cf) None
                   (fdec 9 10) 4 false 1 ;;
    match out with
    | None => Ok (NotUsed s HIGH_INTERP_MASKED_FRAC, rng)
    | Some (new_image, new_noises) =>
        (* 494-504 *)
        let msk := imap2 orb
                     (imap2 orb (img_neq new_image interp_image)
                                (imap (fun w => fltb w fzero) interp_weight))
                     (imap (fun b => negb (Z.land b (cf_spline_flags cf) =? 0)) interp_bmask) in
        msk <- or_changed msk interp_noises new_noises ;;
        let pmask := mark_spline pmask msk in
        (* 506-527 *)
        if fleb (cf_max_masked_fraction cf) (pmask_fraction gaia pmask)
        then Ok (NotUsed s HIGH_MASKED_FRAC, rng)
        else
          (* 532-543 *)
          let u := set_interp_image_noise_pmask s new_image new_noises pmask in
          wt <- build_coadd_weight (cf_coadding_weight cf) (sl_weight s) (sl_psf s) ;;
          Ok (Used u wt, rng)
    end.

(** _coadd_slices.py:283-543, the loop. *)
Fixpoint process_all (cf : config) (map_gaia : option (se_slice -> result (img bool)))
  (l : list (se_slice * bool)) (rng : RNG) : result (list verdict * RNG) :=
  match l with
  | [] => Ok ([], rng)
  | (s, p) :: l =>
      '(v, rng) <- process_slice cf map_gaia s p rng ;;
      '(vs, rng) <- process_all cf map_gaia l rng ;;
      Ok (v :: vs, rng)
  end.

Definition used_of (vs : list verdict) : list used_slice :=
  flat_map (fun v => match v with Used u _ => [u] | NotUsed _ _ => [] end) vs.
Definition weights_of (vs : list verdict) : list F :=
  flat_map (fun v => match v with Used _ w => [w] | NotUsed _ _ => [] end) vs.
Definition not_used_of (vs : list verdict) : list se_slice :=
  flat_map (fun v => match v with Used _ _ => [] | NotUsed s _ => [s] end) vs.
Definition flags_of (vs : list verdict) : list Z :=
  flat_map (fun v => match v with Used _ _ => [] | NotUsed _ f => [f] end) vs.

Record slice_inputs := mkinputs {
  si_slices : list used_slice;
  si_weights : list F;
  si_not_used : list se_slice;
  si_flags : list Z
}.

(** _coadd_slices.py:545-547. *)
Definition normalise (ws : list F) : list F :=
  map (fun w => fdiv w (fsum ws)) ws.

(** _coadd_slices.py:45-550 [_build_slice_inputs]. *)
Definition build_slice_inputs (cf : config)
  (map_gaia : option (se_slice -> result (img bool)))
  (srcs : list se_source) (rng : RNG) : result (slice_inputs * RNG) :=
  possible <- rough_cut srcs ;;
  (* 268-269 *)
  if match possible with [] => true | _ => false end || forallb snd possible
  then Ok (mkinputs [] [] [] [], rng)
  else
    let possible := if cf_reject_outliers cf then reject_outliers possible else possible in
    '(vs, rng) <- process_all cf map_gaia possible rng ;;
    Ok (mkinputs (used_of vs) (normalise (weights_of vs)) (not_used_of vs) (flags_of vs), rng).

(** _pizza_cutter.py:781-792, one row of [epochs_info]. *)
Record epoch_row := mkrow {
  er_id : Z;
  er_image_id : Z;
  er_flags : Z;
  er_row_start : Z;
  er_col_start : Z;
  er_box_size : Z;
  er_psf_row_start : Z;
  er_psf_col_start : Z;
  er_psf_box_size : Z;
  er_weight : F
}.

Definition epoch_row_of (id : Z) (s : se_slice) (flags : Z) (weight : F) : epoch_row :=
  mkrow id (sl_image_id s) flags (sl_y_start s) (sl_x_start s) (sl_box_size s)
    (sl_psf_y_start s) (sl_psf_x_start s) (sl_psf_box_size s) weight.

(** _pizza_cutter.py:759-829 [_make_epochs_info]. Rows that the two zips do not
    reach would stay zero; the lists always have matching lengths here, and the
    model keeps the rows that are filled. *)
Definition make_epochs_info (id : Z) (weights : list F) (slices : list used_slice)
  (not_used : list se_slice) (flags : list Z) : list epoch_row :=
  map (fun wu => epoch_row_of id (u_slice (snd wu)) 0 (fst wu)) (combine weights slices)
  ++ map (fun fs => epoch_row_of id (snd fs) (fst fs) fzero) (combine flags not_used).

End SliceInputs.
