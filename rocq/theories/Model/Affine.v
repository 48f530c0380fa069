(** Model of pizza_cutter/des_pizza_cutter/_affine_wcs.py. *)
From Coq Require Import ZArith List Bool.
From Verif Require Import Lib.Base Lib.Floats.
Open Scope Z_scope.

(** The attributes of an AffineWCS, _affine_wcs.py:46-56. *)
Record affine (F : Type) : Type := mk_affine {
  dudx : F; dudy : F; dvdx : F; dvdy : F; x0 : F; y0 : F; det : F
}.
Arguments mk_affine {F}.
Arguments dudx {F}. Arguments dudy {F}. Arguments dvdx {F}. Arguments dvdy {F}.
Arguments x0 {F}. Arguments y0 {F}. Arguments det {F}.

Section Affine.
Context {F : Type} {FO : FloatOps F}.

(** AffineWCS.__init__, _affine_wcs.py:46-56. *)
Definition affine_wcs (a b c d px py : F) : result (affine F) :=
  let dt := fsub (fmul a d) (fmul c b) in
  if feqb dt fzero then Raise ValueError
  else Ok (mk_affine a b c d px py dt).

(** AffineWCS.image2sky, _affine_wcs.py:79-98. *)
Definition image2sky (w : affine F) (x y : F) : F * F :=
  (fadd (fmul (dudx w) (fsub x (x0 w))) (fmul (dudy w) (fsub y (y0 w))),
   fadd (fmul (dvdx w) (fsub x (x0 w))) (fmul (dvdy w) (fsub y (y0 w)))).

(** AffineWCS.sky2image, _affine_wcs.py:100-119. *)
Definition sky2image (w : affine F) (u v : F) : F * F :=
  (fadd (fdiv (fsub (fmul (dvdy w) u) (fmul (dudy w) v)) (det w)) (x0 w),
   fadd (fdiv (fadd (fmul (fneg (dvdx w)) u) (fmul (dudx w) v)) (det w)) (y0 w)).

(** AffineWCS.get_jacobian, _affine_wcs.py:121-141. *)
Definition affine_jacobian (w : affine F) (x y : F) : F * F * F * F :=
  (dudx w, dudy w, dvdx w, dvdy w).

(** AffineWCS.is_celestial, _affine_wcs.py:143-145. *)
Definition affine_is_celestial (w : affine F) : bool := false.

End Affine.
