(** C01, C02, C03: slice locations, in IEEE double arithmetic. *)
From Coq Require Import ZArith List Reals Lia.
From Verif Require Import Lib.Base Lib.Floats Model.Locate Spec.FloatSpec
  Spec.LocateSpec Proofs.LocateProofs.
Import ListNotations.
Open Scope Z_scope.

(** C01. The returned starts are integers (as doubles) and the central regions
    of the slices that begin there tile the interior of the image, in
    row-major order. *)
Theorem C01_slices_tile_coadd :
  forall central buffer width rows cols start_rows start_cols,
  0 < central <= 2 ^ 51 -> 0 <= buffer <= 2 ^ 51 -> 0 <= width <= 2 ^ 51 ->
  build_slice_locations (F := f64) central buffer width
    = Ok (rows, cols, start_rows, start_cols) ->
  exists starts : list (Z * Z),
    Forall2 f64_is start_rows (map (fun s => IZR (fst s)) starts) /\
    Forall2 f64_is start_cols (map (fun s => IZR (snd s)) starts) /\
    tiles_exactly central buffer width starts /\
    row_major starts.
Proof.
  intros c b W rows cols srows scols Hc Hb HW E.
  destruct (build_ok c b W rows cols srows scols Hc Hb HW E)
    as (starts & H1 & H2 & _ & _ & H5 & H6 & _).
  exists starts. auto.
Qed.

(** C02. Stamps stay inside, and row/col is the centre of the stamp. *)
Theorem C02_stamps_inside_coadd :
  forall central buffer width rows cols start_rows start_cols,
  0 < central <= 2 ^ 51 -> 0 <= buffer <= 2 ^ 51 -> 0 <= width <= 2 ^ 51 ->
  build_slice_locations (F := f64) central buffer width
    = Ok (rows, cols, start_rows, start_cols) ->
  exists starts : list (Z * Z),
    Forall2 f64_is start_rows (map (fun s => IZR (fst s)) starts) /\
    Forall2 f64_is start_cols (map (fun s => IZR (snd s)) starts) /\
    Forall2 f64_is rows (map (fun s => stamp_centre central buffer (fst s)) starts) /\
    Forall2 f64_is cols (map (fun s => stamp_centre central buffer (snd s)) starts) /\
    (forall s, In s starts -> stamp_inside central buffer width s).
Proof.
  intros c b W rows cols srows scols Hc Hb HW E.
  destruct (build_ok c b W rows cols srows scols Hc Hb HW E)
    as (starts & H1 & H2 & H3 & H4 & _ & _ & H7).
  exists starts. auto 10.
Qed.

(** C03. The floating point divisibility test is exact. *)
Theorem C03_inexact_tilings_rejected :
  forall central buffer width,
  0 < central <= 2 ^ 51 -> 0 <= buffer <= 2 ^ 51 -> 0 <= width <= 2 ^ 51 ->
  (build_slice_locations (F := f64) central buffer width = Raise ValueError
     <-> ~ (central | width - 2 * buffer)) /\
  ((central | width - 2 * buffer) ->
     exists r, build_slice_locations (F := f64) central buffer width = Ok r).
Proof. exact build_raises. Qed.

(** The DES configuration: 100 pixel centres, 50 pixel buffers, 10000 pixel
    wide tile (9801 slices), and a rejected one. *)
Example C01_des_geometry :
  match build_slice_locations (F := f64) 100 50 10000 with
  | Ok (rows, _, srows, scols) =>
      length rows = 9801%nat /\ nth_error srows 100 = Some (f64_ofZ 100)
      /\ nth_error scols 100 = Some (f64_ofZ 100)
  | Raise _ => False
  end.
Proof. vm_compute. repeat split; reflexivity. Qed.

Example C03_des_geometry_rejected :
  build_slice_locations (F := f64) 100 51 10000 = Raise ValueError.
Proof. vm_compute. reflexivity. Qed.

Print Assumptions C01_slices_tile_coadd.
Print Assumptions C02_stamps_inside_coadd.
Print Assumptions C03_inexact_tilings_rejected.
