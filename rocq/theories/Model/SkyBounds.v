(** Model of pizza_cutter/des_pizza_cutter/_sky_bounds.py and of the position
    test of SEImageSlice that uses it. *)
From Coq Require Import ZArith List Bool.
From Verif Require Import Lib.Base Lib.Floats.
Import ListNotations.
Open Scope Z_scope.

(** meds.bounds.Bounds: the first axis is u here, the second v. *)
Record bounds (F : Type) : Type := mk_bounds {
  umin : F; umax : F; vmin : F; vmax : F
}.
Arguments mk_bounds {F}.
Arguments umin {F}. Arguments umax {F}. Arguments vmin {F}. Arguments vmax {F}.

Section SkyBounds.
Context {F : Type} {FO : FloatOps F}.

(** meds.bounds.Bounds.contains_points for one point (external, closed box). *)
Definition contains_point (b : bounds F) (u v : F) : bool :=
  fleb (umin b) u && fleb u (umax b) && fleb (vmin b) v && fleb v (vmax b).

(** [int(np.ceil(float(a)/float(b)))]. [None] if the quotient is not finite. *)
Definition ceil_ratio (a b : Z) : option Z :=
  match ffloor (fneg (fdiv (fofZ a) (fofZ b))) with
  | Some k => Some (- k)
  | None => None
  end.

(** _sky_bounds.py:52-57: the number of grid cells in each direction. [None]
    is a ZeroDivisionError. *)
Definition grid_size (nrow ncol n_grid : Z) : option (Z * Z) :=
  if ncol <? nrow
  then match ceil_ratio nrow ncol with
       | Some k => Some (k, n_grid)
       | None => None
       end
  else match ceil_ratio ncol nrow with
       | Some k => Some (n_grid, k)
       | None => None
       end.

(** _sky_bounds.py:61-62: [np.arange(n+1)*(dim-1.0)/n]. *)
Definition grid_axis (n dim : Z) : list F :=
  map (fun k => fdiv (fmul (fofZ k) (fsub (fofZ dim) fone)) (fofZ n)) (zrange 0 (n + 1)).

(** _sky_bounds.py:64-66: meshgrid and ravel; columns vary slowly. Pairs are
    (row, col). *)
Definition grid_points (rows cols : list F) : list (F * F) :=
  flat_map (fun c => map (fun r => (r, c)) rows) cols.

Definition lmin (l : list F) : result F :=
  match l with [] => Raise ValueError | a :: l' => Ok (fold_left fmin l' a) end.
Definition lmax (l : list F) : result F :=
  match l with [] => Raise ValueError | a :: l' => Ok (fold_left fmax l' a) end.

Section Body.
Variable wcs : F -> F -> F * F.                  (* wcs.image2sky(x=, y=) *)
Variable radec_to_uv : F -> F -> F -> F -> F * F. (* meds.util.radec_to_uv *)
Variable cosdeg : F -> F.                        (* x |-> np.cos(np.deg2rad(x)) *)

(** get_rough_sky_bounds, _sky_bounds.py:6-102. [position_offset] is an
    integer in the signature; any value of the float type is allowed here. *)
Definition get_rough_sky_bounds (nrow ncol : Z) (off buff : F) (n_grid : Z) (celestial : bool)
  : result (bounds F * F * F) :=
  match grid_size nrow ncol n_grid with
  | None => Raise ZeroDivisionError
  | Some (n_row, n_col) =>
      let pts := grid_points (grid_axis n_row nrow) (grid_axis n_col ncol) in
      let sky := map (fun rc => wcs (fadd (snd rc) off) (fadd (fst rc) off)) pts in
      let two := fofZ 2 in
      let row_ccd := fdiv (fofZ (nrow - 1)) two in
      let col_ccd := fdiv (fofZ (ncol - 1)) two in
      let '(ra_ccd, dec_ccd) := wcs (fadd col_ccd off) (fadd row_ccd off) in
      let uv :=
        map (fun rd => if celestial
                       then radec_to_uv (fst rd) (snd rd) ra_ccd dec_ccd
                       else (fsub (fst rd) ra_ccd, fsub (snd rd) dec_ccd)) sky in
      let u := map fst uv in
      let v := map snd uv in
      ubuff <- (if celestial
                then ufac <- lmin (map (fun x => cosdeg (fdiv x (fofZ 3600))) v) ;;
                     Ok (fdiv buff ufac)
                else Ok buff) ;;
      u0 <- lmin u ;; u1 <- lmax u ;; v0 <- lmin v ;; v1 <- lmax v ;;
      Ok (mk_bounds (fsub u0 ubuff) (fadd u1 ubuff) (fsub v0 buff) (fadd v1 buff),
          ra_ccd, dec_ccd)
  end.

(** SEImageSlice.ccd_contains_radec, _se_image.py:944-985, for one position.
    Arrays are tested point by point. *)
Definition ccd_contains_radec (b : bounds F) (ra_ccd dec_ccd : F) (celestial : bool)
  (ra dec : F) : bool :=
  let '(u, v) := if celestial then radec_to_uv ra dec ra_ccd dec_ccd
                 else (fsub ra ra_ccd, fsub dec dec_ccd) in
  contains_point b u v.

End Body.
End SkyBounds.
