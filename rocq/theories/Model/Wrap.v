(** Model of pizza_cutter/wcs.py: wrapping of right ascension differences and
    the finite-difference Jacobian. *)
From Coq Require Import ZArith List Bool.
From Verif Require Import Lib.Base Lib.Floats.
Import ListNotations.
Open Scope Z_scope.

Section Loop.
Context {A : Type}.
(** A Python [while cond(x): x = step(x)] loop, run for at most [fuel]
    iterations; [None] means that it is still running. *)
Fixpoint while_loop (cond : A -> bool) (step : A -> A) (fuel : nat) (x : A) : option A :=
  if cond x then
    match fuel with
    | O => None
    | S fuel' => while_loop cond step fuel' (step x)
    end
  else Some x.
End Loop.

Section Wrap.
Context {F : Type} `{FloatOps F}.

(** wcs.py:21-28: the scalar branch of [wrap_ra_diff]. *)
Definition wrap_ra_diff (fuel : nat) (dra : F) : option F :=
  if negb (ffinite dra) then Some dra
  else
    (* 25-26 *)
    match while_loop (fun x => fltb x (fofZ (-180))) (fun x => fadd x (fofZ 360)) fuel dra with
    | None => None
    | Some dra =>
        (* 27-28 *)
        while_loop (fun x => fltb (fofZ 180) x) (fun x => fsub x (fofZ 360)) fuel dra
    end.

(** wcs.py:30-39: the array branch. Every element is kept together with its
    entry of [msk_finite]. The array is updated in place by the code; here the
    updated array is returned. *)
Definition mask_of (cond : F -> bool) (l : list (F * bool)) : list bool :=
  map (fun p => cond (fst p) && snd p) l.
Definition update_masked (step : F -> F) (cond : F -> bool) (l : list (F * bool))
  : list (F * bool) :=
  map (fun p => if cond (fst p) && snd p then (step (fst p), snd p) else p) l.
Definition wrap_loop (cond : F -> bool) (step : F -> F) (fuel : nat) (l : list (F * bool))
  : option (list (F * bool)) :=
  while_loop (fun l => existsb (fun b => b) (mask_of cond l)) (update_masked step cond) fuel l.

Definition wrap_ra_diff_array (fuel : nat) (dra : list F) : option (list F) :=
  (* 30-34 *)
  match wrap_loop (fun x => fltb x (fofZ (-180))) (fun x => fadd x (fofZ 360)) fuel
          (map (fun x => (x, ffinite x)) dra) with
  | None => None
  | Some l =>
      (* 36-39 *)
      match wrap_loop (fun x => fltb (fofZ 180) x) (fun x => fsub x (fofZ 360)) fuel l with
      | None => None
      | Some l => Some (map fst l)
      end
  end.

(** wcs.py:66-118 [FastHashingWCS.get_jacobian] at one position. [image2sky] is
    esutil's transformation, [cos] is numpy.cos and [d2r] the constant D2R. *)
Definition get_jacobian (image2sky : F -> F -> F * F) (cos : F -> F) (d2r : F) (fuel : nat)
  (x y step : F) : option (F * F * F * F) :=
  (* 91 *)
  let fac := fdiv fone (fmul (fofZ 2) step) in
  (* 93-104 *)
  let dec := snd (image2sky x y) in
  let '(ra_p0, dec_p0) := image2sky (fadd x step) y in
  let '(ra_m0, dec_m0) := image2sky (fsub x step) y in
  let '(ra_0p, dec_0p) := image2sky x (fadd y step) in
  let '(ra_0m, dec_0m) := image2sky x (fsub y step) in
  (* 107-118 *)
  match wrap_ra_diff fuel (fsub ra_p0 ra_m0), wrap_ra_diff fuel (fsub ra_0p ra_0m) with
  | Some dx, Some dy =>
      let f := fmul fac (fofZ 3600) in
      let cosdec := fneg (cos (fmul dec d2r)) in
      Some (fmul (fmul f dx) cosdec, fmul (fmul f dy) cosdec,
            fmul f (fsub dec_p0 dec_m0), fmul f (fsub dec_0p dec_0m))
  | _, _ => None
  end.

(** wcs.py:120-129 [FastHashingWCS._lonlatdiff]: the residual minimised by the
    root finder of sky2image. *)
Definition lonlatdiff (image2sky : F -> F -> F * F) (fuel : nat) (answer : F * F) (x y : F)
  : option (F * F) :=
  let '(lon, lat) := image2sky x y in
  match wrap_ra_diff fuel (fsub lon (fst answer)) with
  | Some d => Some (d, fsub lat (snd answer))
  | None => None
  end.
End Wrap.
