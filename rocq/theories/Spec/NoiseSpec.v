(** Vocabulary for the noise images. *)
From Coq Require Import ZArith.
From Verif Require Import Lib.Base.
Open Scope Z_scope.

(** [pos] numbers the pixels of an [nx x ny] image with 0 .. nx*ny-1, each
    number being used for exactly one pixel. *)
Definition numbering (nx ny : Z) (pos : Z -> Z -> Z) : Prop :=
  (forall r c, 0 <= r < nx -> 0 <= c < ny -> 0 <= pos r c < nx * ny) /\
  (forall r c r' c', 0 <= r < nx -> 0 <= c < ny -> 0 <= r' < nx -> 0 <= c' < ny ->
     pos r c = pos r' c' -> r = r' /\ c = c') /\
  (forall k, 0 <= k < nx * ny -> exists r c, 0 <= r < nx /\ 0 <= c < ny /\ pos r c = k).
