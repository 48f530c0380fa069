(** Specification vocabulary for the slice tiling. Independent of the model. *)
From Coq Require Import ZArith List Reals.
Import ListNotations.
Open Scope Z_scope.

(** A slice is described by the integer position (row, column) of its first
    pixel. Its stamp is [central + 2*buffer] pixels wide in each direction and
    its central region is the stamp without the buffer. *)
Definition in_central (central buffer : Z) (start : Z * Z) (r q : Z) : Prop :=
  fst start + buffer <= r < fst start + buffer + central /\
  snd start + buffer <= q < snd start + buffer + central.

(** The central regions cover the pixels [buffer, width - buffer) in both
    directions, each pixel exactly once, and nothing else. *)
Definition tiles_exactly (central buffer width : Z) (starts : list (Z * Z)) : Prop :=
  (forall r q, buffer <= r < width - buffer -> buffer <= q < width - buffer ->
     exists! i, (i < length starts)%nat /\
                in_central central buffer (nth i starts (0, 0)) r q) /\
  (forall i r q, (i < length starts)%nat ->
     in_central central buffer (nth i starts (0, 0)) r q ->
     buffer <= r < width - buffer /\ buffer <= q < width - buffer).

(** Row-major order: by row, then by column, strictly increasing. *)
Definition row_major (starts : list (Z * Z)) : Prop :=
  forall i j, (i < j < length starts)%nat ->
    fst (nth i starts (0, 0)) < fst (nth j starts (0, 0)) \/
    (fst (nth i starts (0, 0)) = fst (nth j starts (0, 0)) /\
     snd (nth i starts (0, 0)) < snd (nth j starts (0, 0))).

(** The stamp of a slice lies in the image. *)
Definition stamp_inside (central buffer width : Z) (start : Z * Z) : Prop :=
  0 <= fst start /\ fst start + central + 2 * buffer <= width /\
  0 <= snd start /\ snd start + central + 2 * buffer <= width.

(** Centre of a stamp along one axis, zero-indexed at pixel centres: the mean
    of the first and last pixel index. *)
Definition stamp_centre (central buffer start : Z) : R :=
  ((IZR start + IZR (start + central + 2 * buffer - 1)) / 2)%R.
