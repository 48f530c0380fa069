(** Model of _check_point_in_bad_piff_model_mask,
    pizza_cutter/des_pizza_cutter/_se_image.py:367-370, and of
    pizza_cutter/gsutils.py. *)
From Coq Require Import ZArith List Bool String.
From Verif Require Import Lib.Base Lib.Floats Lib.PyDict Lib.PyText.
Import ListNotations.
Open Scope Z_scope.

Section Cell.
Context {F : Type} `{FloatOps F}.

(** [np.clip(np.floor(q), 0, n-1).astype(int)], lines 368 and 369. The floor of
    an infinity is that infinity, which is clipped; NaN is not, and its
    conversion to an integer is the smallest 64 bit one. [np.clip] applies the
    upper bound last. The bounds are small enough to be exact as floats. *)
Definition clipped_floor (q : F) (n : Z) : Z :=
  match ffloor q with
  | Some z => Z.min (Z.max z 0) (n - 1)
  | None => if fnan q then - 2 ^ 63
            else if fltb q fzero then Z.min 0 (n - 1) else n - 1
  end.

(** _se_image.py:367-370 [_check_point_in_bad_piff_model_mask]. The index of
    line 370 follows Python's rule for negative numbers. *)
Definition check_point_in_bad_piff_model_mask (x y : F) (bad_msk : img bool) (grid_size : Z)
  : result bool :=
  let xg := clipped_floor (fdiv x (fofZ grid_size)) (ncols bad_msk) in    (* 368 *)
  let yg := clipped_floor (fdiv y (fofZ grid_size)) (nrows bad_msk) in    (* 369 *)
  match pyindex (nrows bad_msk) yg, pyindex (ncols bad_msk) xg with       (* 370 *)
  | Some r, Some c => Ok (px bad_msk r c)
  | _, _ => Raise IndexError
  end.

End Cell.

(** ** pizza_cutter/gsutils.py *)

Section Header.
Context {V W : Type}.
Variable fits_wcs : dict V -> result W.          (* galsim.FitsWCS(header=...) *)
Variable is_gs_fits_wcs : W -> bool.             (* isinstance(wcs, galsim.GSFitsWCS) *)

(** The dictionary comprehension of lines 20-22: cards without a name have the
    key None and are left out; a later card overwrites an earlier one whose
    name is the same in upper case. *)
Definition upper_header (wcs_dict : list (option string * V)) : dict V :=
  fold_left (fun acc kv => match fst kv with
                           | Some k => dset acc (upper k) (snd kv)
                           | None => acc
                           end) wcs_dict [].

(** gsutils.py:4-24 [get_gs_fits_wcs_from_dict]. *)
Definition get_gs_fits_wcs_from_dict (wcs_dict : list (option string * V)) : result W :=
  wcs <- fits_wcs (upper_header wcs_dict) ;;                              (* 20-22 *)
  if is_gs_fits_wcs wcs then Ok wcs else Raise AssertionError.            (* 23-24 *)

End Header.
