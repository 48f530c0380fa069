(** Arithmetic used by the numerical code.

    The model is written over an arbitrary record of floating point
    operations. Two instances are given: IEEE-754 binary64 as specified by the
    standard library ([SpecFloat], executable and axiom free), and the real
    numbers (exact arithmetic). *)
From Coq Require Import ZArith Bool Reals SpecFloat.
From Flocq Require Import Core.Raux.
Open Scope Z_scope.

Class FloatOps (F : Type) : Type := {
  fofZ : Z -> F;                 (* float(i) *)
  fadd : F -> F -> F;
  fsub : F -> F -> F;
  fmul : F -> F -> F;
  fdiv : F -> F -> F;
  fabs : F -> F;
  fsqrt : F -> F;
  fleb : F -> F -> bool;         (* x <= y, False when a NaN is involved *)
  fltb : F -> F -> bool;
  feqb : F -> F -> bool;         (* x == y *)
  ffinite : F -> bool;           (* np.isfinite *)
  fnan : F -> bool;              (* np.isnan *)
  ffloor : F -> option Z;        (* int(floor(x)), None if not finite *)
  ftrunc : F -> option Z         (* int(x), None if not finite *)
}.

(** [a / 10^n]-style decimal literals: numerator and denominator are exact
    doubles (a < 2^53, n <= 22), so the quotient is the correctly rounded literal. *)
Definition fdec {F} `{FloatOps F} (num den : Z) : F := fdiv (fofZ num) (fofZ den).

Definition fzero {F} `{FloatOps F} : F := fofZ 0.
Definition fone {F} `{FloatOps F} : F := fofZ 1.
Definition fhalf {F} `{FloatOps F} : F := fdec 1 2.
Definition fneg {F} `{FloatOps F} (x : F) : F := fsub fzero x.

(** [np.sum] of the numbers of a contiguous array, numpy's pairwise summation
    (numpy/core/src/umath/loops_utils.h.src, DOUBLE_pairwise_sum): less than eight
    numbers are added one after the other; up to 128 numbers in eight running sums; more
    numbers in two parts. The result is added to the initial value 0. (numpy adds arrays
    that are not contiguous row by row; [Spec.SumSpec] describes every order.) *)
Section Sum.
Context {F : Type} `{FloatOps F}.
Local Open Scope list_scope.

Fixpoint eight_sums (r0 r1 r2 r3 r4 r5 r6 r7 : F) (l : list F) : F :=
  match l with
  | a0 :: a1 :: a2 :: a3 :: a4 :: a5 :: a6 :: a7 :: l' =>
      eight_sums (fadd r0 a0) (fadd r1 a1) (fadd r2 a2) (fadd r3 a3)
        (fadd r4 a4) (fadd r5 a5) (fadd r6 a6) (fadd r7 a7) l'
  | _ =>
      List.fold_left fadd l
        (fadd (fadd (fadd r0 r1) (fadd r2 r3)) (fadd (fadd r4 r5) (fadd r6 r7)))
  end.

Definition block_sum (l : list F) : F :=
  match l with
  | a0 :: a1 :: a2 :: a3 :: a4 :: a5 :: a6 :: a7 :: l' => eight_sums a0 a1 a2 a3 a4 a5 a6 a7 l'
  | _ => List.fold_left fadd l fzero
  end.

(** The first argument only makes the recursion end. *)
Fixpoint pairwise_sum (steps : nat) (l : list F) : F :=
  match steps with
  | O => block_sum l
  | S steps =>
      if Nat.leb (length l) 128 then block_sum l else
      let n2 := Nat.div (length l) 2 in
      let n2 := Nat.sub n2 (Nat.modulo n2 8) in
      fadd (pairwise_sum steps (List.firstn n2 l)) (pairwise_sum steps (List.skipn n2 l))
  end.

Definition fsum (l : list F) : F := fadd fzero (pairwise_sum (length l) l).
End Sum.

Definition fmax {F} `{FloatOps F} (x y : F) : F := if fltb x y then y else x.
Definition fmin {F} `{FloatOps F} (x y : F) : F := if fltb y x then y else x.

(** ** IEEE-754 binary64 *)

Definition f64 : Set := spec_float.

Definition f64_ofZ (z : Z) : f64 := binary_normalize 53 1024 z 0 false.

Definition f64_floor (x : f64) : option Z :=
  match x with
  | S754_zero _ => Some 0
  | S754_finite s m e =>
      let v := if s then Z.neg m else Z.pos m in
      Some (if 0 <=? e then v * 2 ^ e else v / 2 ^ (- e))
  | _ => None
  end.

Definition f64_trunc (x : f64) : option Z :=
  match x with
  | S754_zero _ => Some 0
  | S754_finite s m e =>
      let a := if 0 <=? e then Z.pos m * 2 ^ e else Z.pos m / 2 ^ (- e) in
      Some (if s then - a else a)
  | _ => None
  end.

Definition f64_finite (x : f64) : bool :=
  match x with S754_zero _ | S754_finite _ _ _ => true | _ => false end.
Definition f64_nan (x : f64) : bool :=
  match x with S754_nan => true | _ => false end.

#[global] Instance F64Ops : FloatOps f64 := {
  fofZ := f64_ofZ;
  fadd := SFadd 53 1024;
  fsub := SFsub 53 1024;
  fmul := SFmul 53 1024;
  fdiv := SFdiv 53 1024;
  fabs := SFabs;
  fsqrt := SFsqrt 53 1024;
  fleb := SFleb;
  fltb := SFltb;
  feqb := SFeqb;
  ffinite := f64_finite;
  fnan := f64_nan;
  ffloor := f64_floor;
  ftrunc := f64_trunc
}.

(** ** Exact arithmetic *)

Definition Rleb (x y : R) : bool := if Rle_dec x y then true else false.
Definition Rltb (x y : R) : bool := if Rlt_dec x y then true else false.
Definition Reqb (x y : R) : bool := if Req_EM_T x y then true else false.

#[global] Instance ROps : FloatOps R := {
  fofZ := IZR;
  fadd := Rplus;
  fsub := Rminus;
  fmul := Rmult;
  fdiv := Rdiv;
  fabs := Rabs;
  fsqrt := sqrt;
  fleb := Rleb;
  fltb := Rltb;
  feqb := Reqb;
  ffinite := fun _ => true;
  fnan := fun _ => false;
  ffloor := fun x => Some (Zfloor x);
  ftrunc := fun x => Some (Ztrunc x)
}.
