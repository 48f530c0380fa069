(** IEEE-754 binary32, for arrays of dtype 'f4'.

    A single precision number is represented by the double of the same value. *)
From Coq Require Import ZArith SpecFloat.
From Verif Require Import Lib.Floats.
Open Scope Z_scope.

(** Conversion of a double to single precision, rounding to nearest, ties to even; then
    back to a double, which is exact. *)
Definition to_single (x : f64) : f64 :=
  match x with
  | S754_finite s m e =>
      match binary_round 24 128 s m e with
      | S754_finite s' m' e' => binary_round 53 1024 s' m' e'
      | y => y
      end
  | _ => x
  end.

(** Arithmetic on single precision arrays. Rounding a sum, difference, product, quotient or
    square root of two single precision numbers first to a double and then to single
    precision is the same as rounding it once, because 53 >= 2 * 24 + 2. *)
Definition F32Ops : FloatOps f64 := {|
  fofZ := fun z => to_single (f64_ofZ z);
  fadd := fun x y => to_single (fadd x y);
  fsub := fun x y => to_single (fsub x y);
  fmul := fun x y => to_single (fmul x y);
  fdiv := fun x y => to_single (fdiv x y);
  fabs := fabs;
  fsqrt := fun x => to_single (fsqrt x);
  fleb := fleb;
  fltb := fltb;
  feqb := feqb;
  ffinite := ffinite;
  fnan := fnan;
  ffloor := ffloor;
  ftrunc := ftrunc
|}.
