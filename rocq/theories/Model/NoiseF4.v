(** The arithmetic of the noise images for a weight map of dtype 'f4', which is what
    the weight extensions of the images hold: _se_image.py:95-105 and
    memmappednoise.py:66-75.

    With the weights, [max_wgt], the quotient by [scale**2], [1.0 / zwgt] and its square
    root are single precision arrays: [scale] is a Python float (_load_info.py), which
    numpy turns into a single when it meets such an array, after squaring it. The draws
    are doubles, so their product with the square root is a double; [store] then is
    [to_single]. The other products are with masks, which are exact. *)
From Coq Require Import ZArith.
From Verif Require Import Lib.Base Lib.Floats Lib.Float32 Model.Noise.
Open Scope Z_scope.

Definition Noise32Ops : FloatOps f64 := {|
  fofZ := f64_ofZ;
  fadd := fun x y => to_single (fadd x y);
  fsub := fun x y => to_single (fsub x y);
  fmul := fun x y => fmul x y;
  fdiv := fun x y => to_single (fdiv x (to_single y));
  fabs := fabs;
  fsqrt := fun x => to_single (fsqrt x);
  fleb := fleb;
  fltb := fltb;
  feqb := feqb;
  ffinite := ffinite;
  fnan := fnan;
  ffloor := ffloor;
  ftrunc := ftrunc
|}.

(** _get_noise_image_impl, _se_image.py:95-105, of a weight map of dtype 'f4'. *)
Definition get_noise_image_f4 (normal : Z -> Z -> f64) (wgt : img f64) (scale : f64) (noise_seed : Z)
  : result (img f64) :=
  get_noise_image (FO := Noise32Ops) normal to_single wgt scale noise_seed.
