(** Specification vocabulary for the coadd of one slice. *)
From Coq Require Import ZArith List Reals.
From Flocq Require Import Core.Raux Core.Zaux.
From Verif Require Import Lib.Base Lib.Floats Spec.FloatSpec.
Import ListNotations.
Open Scope R_scope.

(** [w1 * x1 + w2 * x2 + ...] for a list of (value, weight) pairs. *)
Definition weighted_sum (l : list (R * R)) : R :=
  fold_right (fun p acc => fst p * snd p + acc) 0 l.

Definition total (l : list R) : R := fold_right Rplus 0 l.

(** The same, added from left to right in the given arithmetic. *)
Definition running_sum {F} `{FloatOps F} (l : list (F * F)) : F :=
  fold_left (fun acc p => fadd acc (fmul (fst p) (snd p))) l fzero.

(** A box of the given size. *)
Definition in_box (n r c : Z) : Prop := (0 <= r < n)%Z /\ (0 <= c < n)%Z.

(** Mean of the squared deviations from the mean. *)
Definition spread (l : list R) : R :=
  let n := INR (length l) in
  let m := total l / n in
  total (map (fun x => (x - m) ^ 2) l) / n.

Definition largest (l : list R) (m : R) : Prop := In m l /\ forall x, In x l -> x <= m.

(** In any arithmetic: a value that is not finite counts as zero; the absolute value,
    at most one; the mean of the squared deviations from the mean. *)
Definition finite_part {F} `{FloatOps F} (x : F) : F := if ffinite x then x else fzero.
Definition unit_fraction {F} `{FloatOps F} (x : F) : F :=
  if fltb (fabs x) fzero then fzero else if fltb fone (fabs x) then fone else fabs x.
Definition squared_deviation {F} `{FloatOps F} (l : list F) : F :=
  let n := fofZ (Z.of_nat (length l)) in
  let m := fdiv (fsum l) n in
  fdiv (fsum (map (fun x => fmul (fsub x m) (fsub x m)) l)) n.

(** Doubles: [out] is the weighted mean of the doubles [ds], with weights of values
    [ws], up to a rounding error relative to the mean of the absolute values. The
    inputs must be finite and not near the limits of the range. *)
Definition weighted_mean (xs ws : list R) : R := weighted_sum (combine xs ws) / total ws.

Definition averages (ws : list R) (ds : list f64) (out : f64) : Prop :=
  forall xs, Forall2 f64_is ds xs -> Forall (fun x => Rabs x <= bpow radix2 450) xs ->
  exists v, f64_is out v /\
    Rabs (v - weighted_mean xs ws)
    <= (3 * INR (length ws) + 2) * bpow radix2 (-52) * weighted_mean (map Rabs xs) ws
       + bpow radix2 (-1000).

(** Weights that are positive and not near the limits of the range, and not too many. *)
Definition ordinary_weights (weights : list f64) (ws : list R) : Prop :=
  Forall2 f64_is weights ws /\
  Forall (fun w => bpow radix2 (-450) <= w <= bpow radix2 450) ws /\
  (Z.of_nat (length ws) <= 2 ^ 40)%Z.

(** Doubles: [w] is one over the mean squared deviation of the doubles [ds] from their
    mean, up to rounding. The mean that is used is off by [d]. *)
Definition inverse_spread (ds : list f64) (w : f64) : Prop :=
  forall xs, Forall2 f64_is ds xs -> Forall (fun x => Rabs x <= bpow radix2 200) xs ->
  (0 < Z.of_nat (length xs) <= 2 ^ 40)%Z -> bpow radix2 (-900) <= spread xs ->
  let n := INR (length xs) in
  exists v d, f64_is w v /\ 0 < v /\
    Rabs d <= (n + 1) * bpow radix2 (-52) * (total (map Rabs xs) / n) + bpow radix2 (-1000) /\
    Rabs (v * (spread xs + d ^ 2) - 1) <= (n + 6) * bpow radix2 (-52).

(** Doubles: an image of [n] x [n] finite pixels of ordinary size that sum to one up to
    [d]; their absolute values sum to at most [a]. *)
Definition sums_to_one (n : Z) (d a : R) (im : img f64) : Prop :=
  nrows im = n /\ ncols im = n /\
  (forall r c, inb im r c -> exists v, f64_is (px im r c) v /\ Rabs v <= bpow radix2 450) /\
  Rabs (total (map f64_val (ravel im)) - 1) <= d /\
  total (map (fun x => Rabs (f64_val x)) (ravel im)) <= a.
