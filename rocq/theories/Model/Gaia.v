(** Model of the star masks of _pizza_cutter.py: [_add_gaia_radius] (241-251),
    [_build_gaia_star_mask] (254-271) and [_read_gaia_stars] (651-682).

    A catalogue is a list of rows; the columns that are not used here are left
    out. The WCS, [10.0**x], the conversion to float32 and metadetect's
    make_foreground_bmask are arguments. The lru_cache of the last function is
    left out: its key is the file name, the WCS and the offset, and no caller
    changes the array (rows are selected by fancy indexing, 243, which copies). *)
From Coq Require Import ZArith List Bool.
From Verif Require Import Lib.Base Lib.Floats.
Import ListNotations.
Open Scope Z_scope.

Section Gaia.
Context {F : Type} {FO : FloatOps F}.

(** Columns ra, dec and phot_g_mean_mag of the catalogue. *)
Record star := mkstar { st_ra : F; st_dec : F; st_mag : F }.

(** With the columns x and y. *)
Record placed_star := mkplaced { pl_star : star; pl_x : F; pl_y : F }.

(** [wcs.sky2image] for one position; it is called with arrays and acts
    element by element. *)
Variable sky2image : F -> F -> result (F * F).

(** _pizza_cutter.py:651-682, after reading the file. *)
Fixpoint read_gaia_stars (wcs_position_offset : Z) (data : list star)
  : result (list placed_star) :=
  match data with
  | [] => Ok []
  | s :: data =>
      ' (x, y) <- sky2image (st_ra s) (st_dec s) ;;
      rest <- read_gaia_stars wcs_position_offset data ;;
      Ok (mkplaced s (fsub x (fofZ wcs_position_offset)) (fsub y (fofZ wcs_position_offset)) :: rest)
  end.

(** [np.poly1d(coeffs)(x)]: Horner's rule, the highest power first. *)
Definition polyval (coeffs : list F) (x : F) : F :=
  fold_left (fun y c => fadd (fmul y x) c) coeffs fzero.

(** [10.0**x] and the conversion to float32. *)
Variable pow10 : F -> F.
Variable to_f4 : F -> F.

(** _pizza_cutter.py:241-251: the selected stars with their radius. *)
Definition add_gaia_radius (gaia_stars : list placed_star) (max_g_mag : F) (poly_coeffs : list F)
  : list (placed_star * F) :=
  map (fun p => (p, to_f4 (pow10 (polyval poly_coeffs (st_mag (pl_star p))))))
    (filter (fun p => fleb (st_mag (pl_star p)) max_g_mag) gaia_stars).

(** [make_foreground_bmask(xm=, ym=, rm=, dims=(n, n), symmetrize=, mask_bit_val=1)]
    of metadetect. *)
Variable make_foreground_bmask : list (F * F * F) -> Z -> bool -> result (img Z).

(** _pizza_cutter.py:254-271. *)
Definition build_gaia_star_mask (gaia_stars : list placed_star) (max_g_mag : F) (poly_coeffs : list F)
  (start_col start_row : F) (box_size : Z) (symmetrize : bool) : result (img bool) :=
  let gaia_stars := add_gaia_radius gaia_stars max_g_mag poly_coeffs in
  m <- make_foreground_bmask
         (map (fun p => (fsub (pl_x (fst p)) start_col, fsub (pl_y (fst p)) start_row, snd p)) gaia_stars)
         box_size symmetrize ;;
  Ok (imap (fun v => negb (v =? 0)) m).

End Gaia.
