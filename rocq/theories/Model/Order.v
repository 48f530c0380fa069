(** Model of the ordering of the slices, _pizza_cutter.py:518-537.

    [np.argsort] and the Hilbert curve of the package hilbertcurve are
    arguments. *)
From Coq Require Import ZArith List Bool.
From Verif Require Import Lib.Base Lib.Floats.
Import ListNotations.
Open Scope Z_scope.

Section Order.
Context {F : Type} {FO : FloatOps F}.

Variable sky2image : F -> F -> result (F * F).
(** [HilbertCurve(8, 2).distance_from_point([x, y])]; it raises for points
    outside of its square. *)
Variable distance_from_point : Z -> Z -> result Z.
Variable argsort : list Z -> list Z.

(** _pizza_cutter.py:524. *)
Definition ph_order : Z := 8.

(** _pizza_cutter.py:532-533: [min(max(int(v / d), 0), ph_order-1)]. int() of a
    NaN is a ValueError, of an infinity an OverflowError. *)
Definition cell_index (v d : F) : result Z :=
  let q := fdiv v d in
  match ftrunc q with
  | None => if fnan q then Raise ValueError else Raise OverflowError
  | Some k => Ok (Z.min (Z.max k 0) (ph_order - 1))
  end.

(** _pizza_cutter.py:531-533: the cell of a slice with sky position (ra, dec);
    the coadd has [nrow] rows and [ncol] columns (info['image_shape']). *)
Definition slice_cell (nrow ncol : Z) (ra dec : F) : result (Z * Z) :=
  let dx := fdiv (fofZ ncol) (fofZ ph_order) in
  let dy := fdiv (fofZ nrow) (fofZ ph_order) in
  ' (col, row) <- sky2image ra dec ;;
  xind <- cell_index col dx ;;
  yind <- cell_index row dy ;;
  Ok (xind, yind).

(** _pizza_cutter.py:530-534, the loop. [sky] holds the columns ra and dec of
    the object data. *)
Fixpoint slice_distances (nrow ncol : Z) (sky : list (F * F)) (slices : list Z) : result (list Z) :=
  match slices with
  | [] => Ok []
  | i :: slices =>
      ' (ra, dec) <- pynth sky i ;;
      ' (xind, yind) <- slice_cell nrow ncol ra dec ;;
      d <- distance_from_point xind yind ;;
      rest <- slice_distances nrow ncol sky slices ;;
      Ok (d :: rest)
  end.

(** slices_to_do[sind], an IndexError for an index out of range. *)
Fixpoint take (slices : list Z) (sind : list Z) : result (list Z) :=
  match sind with
  | [] => Ok []
  | k :: sind => s <- pynth slices k ;; rest <- take slices sind ;; Ok (s :: rest)
  end.

(** _pizza_cutter.py:524-536. *)
Definition order_slices (nrow ncol : Z) (sky : list (F * F)) (slices : list Z) : result (list Z) :=
  distances <- slice_distances nrow ncol sky slices ;;
  take slices (argsort distances).

End Order.
