(** Reading a binary64 datum as a real number. *)
From Coq Require Import ZArith Reals SpecFloat.
From Flocq Require Import Core BinarySingleNaN.
From Verif Require Import Lib.Floats.

(** Value of a finite binary64 datum (0 for infinities and NaN). *)
Definition f64_val (x : f64) : R := SF2R radix2 x.

(** [x] is a valid, finite binary64 datum whose value is exactly [v]. *)
Definition f64_is (x : f64) (v : R) : Prop :=
  valid_binary 53 1024 x = true /\ f64_finite x = true /\ f64_val x = v.

(** Rounding of a real number to the nearest binary64 number, ties to even. *)
Definition rnd64 (x : R) : R :=
  Generic_fmt.round radix2 (SpecFloat.fexp 53 1024) ZnearestE x.
