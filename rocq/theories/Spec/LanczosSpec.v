(** Vocabulary for kernel sums, over R. *)
From Coq Require Import ZArith List Reals.
From Verif Require Import Lib.Base.
Open Scope R_scope.

(** Sum of a list of reals. *)
Fixpoint rsum (l : list R) : R :=
  match l with nil => 0 | cons x l' => x + rsum l' end.

(** Pixel index [i] is in the kernel window of half size [a] around [t]. *)
Definition in_window (a : Z) (t : R) (i : Z) : Prop := t - IZR a < IZR i <= t + IZR a.

(** [S] is the sum of [f r c] over the pixels of the [nr x nc] image that are
    in the window around [(y, x)]: some duplicate-free enumeration of exactly
    these pixels adds up to [S]. *)
Definition window_sum (nr nc a : Z) (y x : R) (f : Z -> Z -> R) (S : R) : Prop :=
  exists ps : list (Z * Z),
    NoDup ps /\
    (forall r c, In (r, c) ps <->
       (0 <= r < nr)%Z /\ (0 <= c < nc)%Z /\ in_window a y r /\ in_window a x c) /\
    S = rsum (map (fun p => f (fst p) (snd p)) ps).

(** The normalised sinc function. *)
Definition true_sinc (x : R) : R :=
  if Req_EM_T x 0 then 1 else sin (PI * x) / (PI * x).
