(** Single precision numbers. *)
From Coq Require Import ZArith List Reals String.
From Flocq Require Import Core.Raux Core.Zaux.
From Verif Require Import Lib.Base Lib.Floats Model.Writer Model.SingleSlice
  Spec.FloatSpec Spec.CoaddSpec Spec.SingleSliceSpec.
From Coq Require Import List.
Import ListNotations.
Open Scope R_scope.

(** The real number [v] is a finite single precision number: a multiple of a power of two
    with a significand of 24 bits. *)
Definition single (v : R) : Prop :=
  exists m e : Z, v = IZR m * bpow radix2 e /\ (Z.abs m < 2 ^ 24)%Z /\ (-149 <= e <= 104)%Z.

(** The largest one. *)
Definition largest_single : R := bpow radix2 128 - bpow radix2 104.

(** [out] is a single precision number near the weighted mean of the doubles [ds], with
    weights of values [ws]. *)
Definition averages_single (ws : list R) (ds : list f64) (out : f64) : Prop :=
  forall xs, Forall2 f64_is ds xs -> Forall (fun x => Rabs x <= bpow radix2 100) xs ->
  exists v, f64_is out v /\ single v /\
    Rabs (v - weighted_mean xs ws)
    <= (INR (length ws) + 1) * bpow radix2 (-22) * weighted_mean (map Rabs xs) ws
       + bpow radix2 (-120).

(** [w1 * x1 + w2 * x2 + ...], stored after every addition. *)
Definition stored_sum {F} `{FloatOps F} (store : F -> F) (l : list (F * F)) : F :=
  fold_left (fun acc p => store (fadd acc (fmul (fst p) (snd p)))) l fzero.

(** The single precision number [w] is one over the mean squared deviation of the single
    precision numbers [ds] from their mean, up to rounding. The mean that is used is off by
    [d]. *)
Definition inverse_spread_single (ds : list f64) (w : f64) : Prop :=
  forall xs, Forall2 f64_is ds xs -> Forall single xs -> Forall (fun x => Rabs x <= bpow radix2 40) xs ->
  (0 < Z.of_nat (length xs) <= 2 ^ 20)%Z -> bpow radix2 (-60) <= spread xs ->
  let n := INR (length xs) in
  exists v d, f64_is w v /\ single v /\ 0 < v /\
    Rabs d <= (n + 1) * bpow radix2 (-23) * (total (map Rabs xs) / n) + bpow radix2 (-140) /\
    Rabs (v * (spread xs + d ^ 2) - 1) <= (n + 6) * bpow radix2 (-23).

(** Sum of a quantity over the images, with normalised weights, stored after every
    addition. *)
Definition stored_over {F} `{FloatOps F} {D : Type} (store : F -> F) (datas : list D) (weights : list F)
  (f : D -> F) : F :=
  stored_sum store (combine (map f datas) (map (fun w => fdiv w (fsum weights)) weights)).

(** Extension [e] holds, at the place of slice [i], single precision numbers near the mean
    of the images with the pixels [values], with weights of values [ws]. *)
Definition holds_mean_single {E : Type} (o : @out f64 (@pixel f64) E) (e : string) (i size : Z)
  (ws : list R) (values : Z -> Z -> list f64) : Prop :=
  exists mean, holds o e i size (fun y x => PF (mean y x)) /\
    forall y x, averages_single ws (values y x) (mean y x).

(** Extension [e] holds the masks [value] at the place of slice [i], as 32 bit integers:
    modulo 2^32, so that masks that are 32 bit integers are there as they are. *)
Definition holds_mask_single {E : Type} (o : @out f64 (@pixel f64) E) (e : string) (i size : Z)
  (value : Z -> Z -> Z) : Prop :=
  exists mask, holds o e i size (fun y x => PI (mask y x)) /\
    forall y x, (- 2 ^ 31 <= mask y x < 2 ^ 31)%Z /\ (exists k, value y x = mask y x + k * 2 ^ 32)%Z.
