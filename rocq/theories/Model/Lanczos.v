(** Model of pizza_cutter/coadding/_sinc.py and _lanczos.py.

    The functions are compiled by numba with fastmath=True, which lets the
    compiler reassociate sums; the model fixes the order written in the
    source, C20_any_order_double bounds every order. Out of bounds reads, which numba does not check, are rendered as
    IndexError. *)
From Coq Require Import ZArith List Bool.
From Verif Require Import Lib.Base Lib.Floats.
Import ListNotations.
Open Scope Z_scope.

Section Lanczos.
Context {F : Type} {FO : FloatOps F}.

(** Horner evaluation [c0 + x * (c1 + x * (... + x * cn))]. *)
Fixpoint horner (cs : list F) (x : F) : F :=
  match cs with
  | [] => fzero
  | [c] => c
  | c :: cs' => fadd c (fmul x (horner cs' x))
  end.

(** Coefficients of the numerator, _sinc.py:24-35. *)
Definition pade_num : list F :=
  [ fdec (-166666666666666) (10 ^ 15);
    fdec (-289176685343373) (10 ^ 15);
    fdec (-109757669089546) (10 ^ 15);
    fdec 350931080575596 (10 ^ 16);
    fdec 229947584643336 (10 ^ 16);
    fdec (-89363958201935) (10 ^ 17);
    fdec (-162722192965722) (10 ^ 17);
    fdec (-300689146075626) (10 ^ 19);
    fdec 513864469774294 (10 ^ 19);
    fdec 123561563382214 (10 ^ 20);
    fdec (-637392253619041) (10 ^ 21) ].

(** Coefficients of the denominator, _sinc.py:36-47. *)
Definition pade_den : list F :=
  [ fofZ 1;
    fdec (-982732212730775) (10 ^ 16);
    fdec 122536542608403 (10 ^ 15);
    fdec (-111525324680647) (10 ^ 16);
    fdec 724707512833019 (10 ^ 17);
    fdec (-584774445653404) (10 ^ 18);
    fdec 262528048296579 (10 ^ 18);
    fdec (-171596576734417) (10 ^ 19);
    fdec 591945411660804 (10 ^ 20);
    fdec (-244174818579491) (10 ^ 21);
    fdec 674473938075399 (10 ^ 22) ].

(** sinc_pade, _sinc.py:15-48. *)
Definition sinc_pade (x0 : F) : F :=
  let x := fabs x0 in
  let num := fmul (fmul (fmul (horner pade_num x) (fsub x (fofZ 1)))
                        (fsub x (fofZ 2))) (fsub x (fofZ 3)) in
  let den := horner pade_den x in
  fdiv num den.

(** [sinc(d) * sinc(d/a)], _lanczos.py:74, 81, 159, 166. *)
Definition lanczos_kernel (a : Z) (d : F) : F :=
  fmul (sinc_pade d) (sinc_pade (fdiv d (fofZ a))).

(** One output position of lanczos_resample, _lanczos.py:47-87. The loops use
    [continue] for pixels outside the image. *)
Definition lanczos_point (im : img F) (a : Z) (y x : F) : result (F * bool) :=
  match ffloor x, ffloor y with
  | Some fx, Some fy =>
      let ny := nrows im in
      let nx := ncols im in
      let x_s := fx - a + 1 in
      let x_f := fx + a in
      let y_s := fy - a + 1 in
      let y_f := fy + a in
      let out_of_bounds := (x_f <? 0) || (x_s >? nx - 1) || (y_f <? 0) || (y_s >? ny - 1) in
      let val1 :=
        fold_left (fun v y_pix =>
          if (y_pix <? 0) || (y_pix >? ny - 1) then v
          else
            let sy := lanczos_kernel a (fsub y (fofZ y_pix)) in
            fold_left (fun v x_pix =>
              if (x_pix <? 0) || (x_pix >? nx - 1) then v
              else
                let sx := lanczos_kernel a (fsub x (fofZ x_pix)) in
                fadd v (fmul (px im y_pix x_pix) (fmul sx sy)))
              (zrange x_s (x_f + 1)) v)
          (zrange y_s (y_f + 1)) fzero in
      Ok (val1, out_of_bounds)
  | _, _ => Raise OtherError
  end.

(** The loop over positions, _lanczos.py:47-89. *)
Fixpoint lanczos_loop (im : img F) (a : Z) (rows cols : list F) : result (list F * list bool) :=
  match rows, cols with
  | [], _ => Ok ([], [])
  | _ :: _, [] => Raise IndexError
  | y :: rows', x :: cols' =>
      '(v, e) <- lanczos_point im a y x ;;
      '(vs, es) <- lanczos_loop im a rows' cols' ;;
      Ok (v :: vs, e :: es)
  end.

(** lanczos_resample, _lanczos.py:10-89. *)
Definition lanczos_resample (im : img F) (rows cols : list F) (a : Z) : result (list F * list bool) :=
  if a <=? 3 then lanczos_loop im a rows cols else Raise AssertionError.

(** One output position of lanczos_resample_two, _lanczos.py:131-174. *)
Definition lanczos_point_two (im1 im2 : img F) (a : Z) (y x : F) : result (F * F * bool) :=
  match ffloor x, ffloor y with
  | Some fx, Some fy =>
      let ny := nrows im1 in
      let nx := ncols im1 in
      let x_s := fx - a + 1 in
      let x_f := fx + a in
      let y_s := fy - a + 1 in
      let y_f := fy + a in
      let out_of_bounds := (x_f <? 0) || (x_s >? nx - 1) || (y_f <? 0) || (y_s >? ny - 1) in
      let vals :=
        fold_left (fun v y_pix =>
          if (y_pix <? 0) || (y_pix >? ny - 1) then v
          else
            let sy := lanczos_kernel a (fsub y (fofZ y_pix)) in
            fold_left (fun v x_pix =>
              if (x_pix <? 0) || (x_pix >? nx - 1) then v
              else
                let sx := lanczos_kernel a (fsub x (fofZ x_pix)) in
                let kernel := fmul sx sy in
                (fadd (fst v) (fmul (px im1 y_pix x_pix) kernel),
                 fadd (snd v) (fmul (px im2 y_pix x_pix) kernel)))
              (zrange x_s (x_f + 1)) v)
          (zrange y_s (y_f + 1)) (fzero, fzero) in
      Ok (vals, out_of_bounds)
  | _, _ => Raise OtherError
  end.

(** lanczos_resample_two, _lanczos.py:92-176. It has no check on [a]. *)
Fixpoint lanczos_resample_two (im1 im2 : img F) (rows cols : list F) (a : Z)
  : result (list F * list F * list bool) :=
  match rows, cols with
  | [], _ => Ok ([], [], [])
  | _ :: _, [] => Raise IndexError
  | y :: rows', x :: cols' =>
      '(v1, v2, e) <- lanczos_point_two im1 im2 a y x ;;
      '(vs1, vs2, es) <- lanczos_resample_two im1 im2 rows' cols' a ;;
      Ok (v1 :: vs1, v2 :: vs2, e :: es)
  end.

End Lanczos.
