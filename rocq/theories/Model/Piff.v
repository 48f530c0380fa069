(** Model of the PSF quality cuts: _piff_tools.py:88-152 (compute_piff_flags),
    _des_info.py:11-69 (flag_data_in_info) and the test of PSF models in
    _se_image.py:331-370 and 1245-1283. *)
From Coq Require Import ZArith List Bool.
From Verif Require Import Lib.Base Lib.Floats Model.PsfImage.
Import ListNotations.
Open Scope Z_scope.

Section Piff.
Context {F : Type} {FO : FloatOps F}.

(** The dictionary [piff_info], _piff_tools.py:73-83. *)
Record piff_info := mkpi {
  pi_desdm_flags : Z;
  pi_fwhm_cen : F;
  pi_star_t_std : F;
  pi_star_t_mean : F;
  pi_nstar : Z;
  pi_exp_star_t_mean : F;
  pi_exp_star_t_std : F
}.

(** The cuts; [None] switches one off. *)
Record piff_cuts := mkcuts {
  max_fwhm_cen : option F;
  min_nstar : option Z;
  max_exp_T_mean_fac : option F;
  max_ccd_T_std_fac : option F
}.

(** [flags |= 2**k] under a condition. *)
Definition or_bit (b : bool) (k : Z) (flags : Z) : Z := if b then Z.lor flags (2 ^ k) else flags.

(** compute_piff_flags, _piff_tools.py:126-152. *)
Definition compute_piff_flags (p : piff_info) (c : piff_cuts) : Z :=
  let flags := 0 in
  let flags := or_bit (negb (pi_desdm_flags p =? 0)) 0 flags in
  let flags := or_bit (match max_fwhm_cen c with
                       | None => false
                       | Some m => fleb m (pi_fwhm_cen p)
                       end) 1 flags in
  let flags := or_bit (match max_ccd_T_std_fac c with
                       | None => false
                       | Some m => fleb (fmul m (pi_star_t_mean p)) (pi_star_t_std p)
                       end) 2 flags in
  let flags := or_bit (match min_nstar c with
                       | None => false
                       | Some m => pi_nstar p <? m
                       end) 3 flags in
  let flags := or_bit (match max_exp_T_mean_fac c with
                       | None => false
                       | Some m => fleb (fmul m (pi_exp_star_t_std p))
                                     (fabs (fsub (pi_star_t_mean p) (pi_exp_star_t_mean p)))
                       end) 4 flags in
  flags.

(** _des_info.py:11. *)
Definition IGNORED_CCD : Z := 2 ^ 30.

(** The keys of a source that flag_data_in_info uses; [None] for a missing key.
    [si_logged] tells whether 'path' and 'filename' are there. *)
Record src_info := mksi {
  si_flags : option Z;
  si_ccdnum : option Z;
  si_piff : option piff_info;
  si_logged : bool
}.

(** The configuration: the section 'single_epoch' with its 'piff_cuts' and
    'ignored_ccds'. *)
Record se_config := mksec { sc_cuts : option piff_cuts; sc_ignored : option (list Z) }.

Definition set_flags (s : src_info) (f : Z) : src_info :=
  mksi (Some f) (si_ccdnum s) (si_piff s) (si_logged s).

(** _des_info.py:51-65 for one source: the source after it and the exception, if
    there was one. *)
Definition flag_piff (config : option se_config) (s : src_info) : src_info * option pyexc :=
  match config with
  | None => (s, None)
  | Some cfg =>
      match sc_cuts cfg, si_piff s with
      | Some cuts, Some p =>
          let piff_flags := compute_piff_flags p cuts in
          match si_flags s with
          | None => (s, Some KeyError)
          | Some f =>
              let s := set_flags s (Z.lor f piff_flags) in
              if negb (piff_flags =? 0) && negb (si_logged s) then (s, Some KeyError) else (s, None)
          end
      | _, _ => (s, None)
      end
  end.

(** _des_info.py:67-69. *)
Definition flag_ccd (config : option se_config) (s : src_info) : src_info * option pyexc :=
  match config with
  | None => (s, Some KeyError)
  | Some cfg =>
      match sc_ignored cfg with
      | None => (s, None)
      | Some ignored =>
          match si_ccdnum s with
          | None => (s, Some KeyError)
          | Some ccd =>
              if existsb (Z.eqb ccd) ignored then
                match si_flags s with
                | None => (s, Some KeyError)
                | Some f => (set_flags s (Z.lor f IGNORED_CCD), None)
                end
              else (s, None)
          end
      end
  end.

Definition flag_source (config : option se_config) (s : src_info) : src_info * option pyexc :=
  match flag_piff config s with
  | (s, Some e) => (s, Some e)
  | (s, None) => flag_ccd config s
  end.

(** flag_data_in_info, _des_info.py:50-69: the sources are changed in place, so
    those before an exception stay changed. *)
Fixpoint flag_data_in_info (config : option se_config) (srcs : list src_info)
  : list src_info * option pyexc :=
  match srcs with
  | [] => ([], None)
  | s :: srcs =>
      match flag_source config s with
      | (s', Some e) => (s' :: srcs, Some e)
      | (s', None) =>
          let (srcs', e) := flag_data_in_info config srcs in
          (s' :: srcs', e)
      end
  end.

(** Sorting, for the median. *)
Fixpoint insert (x : F) (l : list F) : list F :=
  match l with
  | [] => [x]
  | y :: l' => if fleb x y then x :: l else y :: insert x l'
  end.
Definition fsort (l : list F) : list F := fold_right insert [] l.

(** [np.nanmedian] of finite numbers: the mean of the two middle elements, or
    the middle one. *)
Definition median (l : list F) : F :=
  let s := fsort l in
  let n := Z.of_nat (length l) in
  let a := nth (Z.to_nat ((n - 1) / 2)) s fzero in
  let b := nth (Z.to_nat (n / 2)) s fzero in
  if n mod 2 =? 1 then b else fdiv (fadd a b) (fofZ 2).

(** [np.nanmax] of a non-empty list without NaN. *)
Definition np_max (x : F) (l : list F) : F := fold_left (fun m v => if fltb m v then v else m) l x.

(** _compute_bad_piff_model_delta_flag, _se_image.py:331-364, from the sampled
    statistics. With some value that is not finite the result is True whatever
    the median and the maximum are; without samples np.nanmax raises. *)
Definition bad_piff_model (res : list F) (max_abs_t_diff : F) : result bool :=
  match res with
  | [] => Raise ValueError
  | _ =>
      let has_nans := existsb (fun v => negb (ffinite v)) res in
      if has_nans then Ok true
      else
        let m := median res in
        match map (fun v => fabs (fsub v m)) res with
        | [] => Raise ValueError
        | d :: ds => Ok (fltb max_abs_t_diff (np_max d ds))
        end
  end.

(** set_psf, _se_image.py:1225-1283, with the flag it returns. [sample] stands
    for measure_t_grid_for_piff_model on the model with the given keywords;
    [max_abs_t_diff] is [None] when no mask_piff_failure_config was given. *)
Definition set_psf_flagged (draw : draw_request -> result (img F)) (kind : psf_kind)
  (galsim_n wcs_position_offset : Z) (x y : F)
  (max_abs_t_diff : option F) (sample : result (list F)) : result (psf_data * bool) :=
  flag <- (match max_abs_t_diff, kind with
           | Some m, Piff => res <- sample ;; bad_piff_model res m
           | _, _ => Ok false
           end) ;;
  pf <- set_psf draw kind galsim_n wcs_position_offset x y ;;
  Ok (pf, flag).

End Piff.
