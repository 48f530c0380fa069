(** C19 to C22: the sinc approximant and Lanczos resampling. *)
From Coq Require Import ZArith List Bool Reals Lia Lra SpecFloat.
From Flocq Require Import Core.
From Verif Require Import Lib.Base Lib.Floats Model.Lanczos Spec.LanczosSpec Spec.FloatSpec
  Proofs.BaseFacts Proofs.F64Facts Proofs.LanczosProofs Proofs.SincProofs.
Import ListNotations.
Open Scope R_scope.

(** C19: the denominator, written out as in the source, is positive. *)
Theorem C19_denominator_positive :
  forall x : R, 0 < horner pade_den (Rabs x).
Proof.
  intros x. pose proof (pden_pos (Rabs x)) as H.
  replace (horner pade_den (Rabs x)) with (pden (Rabs x) / 10 ^ 22).
  - apply Rdiv_lt_0_compat; [assumption|apply pow_lt; lra].
  - unfold pden, pade_den, fdec. cbn [horner fadd fmul fdiv fofZ ROps].
    repeat match goal with |- context [IZR (10 ^ ?k)] =>
      let z := eval vm_compute in (10 ^ k)%Z in change (IZR (10 ^ k)) with (IZR z) end.
    field.
Qed.

Theorem C19_even : forall x : R, sinc_pade (- x) = sinc_pade x.
Proof. exact sinc_even. Qed.

(** C19: on the whole range that the resampling uses, the zeros are exactly
    those of the true sinc function. *)
Theorem C19_zeros :
  forall x : R, Rabs x <= 3 ->
  (sinc_pade x = 0 <-> Rabs x = 1 \/ Rabs x = 2 \/ Rabs x = 3).
Proof. exact sinc_zeros. Qed.

Theorem C19_positive_near_zero : forall x : R, Rabs x < 1 -> 0 < sinc_pade x.
Proof. exact sinc_pos. Qed.

(** C19: the value at 0 is close to 1 but not 1 (the docstring says "exactly
    1"), neither in exact nor in double arithmetic. *)
Theorem C19_not_exactly_one_at_zero :
  sinc_pade (0 : R) = 1 - 4 / 10 ^ 15 /\ feqb (sinc_pade (f64_ofZ 0)) (f64_ofZ 1) = false.
Proof. split; [rewrite sinc_at_0; unfold s0; field|vm_compute; reflexivity]. Qed.

(** ... and at 1, 2, 3 the double value is exactly zero. *)
Theorem C19_double_zeros :
  map (fun z => feqb (sinc_pade (f64_ofZ z)) (f64_ofZ 0)) [1; 2; 3; -1; -2; -3]%Z
  = [true; true; true; true; true; true].
Proof. vm_compute. reflexivity. Qed.

(** C19: the approximant is accurate to 1.05e-6 on the whole range that the
    resampling uses. *)
Theorem C19_accuracy :
  forall x : R, Rabs x <= 3 -> Rabs (sinc_pade x - true_sinc x) <= 105 / 10 ^ 8.
Proof. exact sinc_close. Qed.

(** ... hence the kernel is accurate to 2.2e-6, better than the documented
    1.03019e-05. *)
Theorem C19_kernel_accuracy :
  forall (a : Z) (d : R), (1 <= a)%Z -> Rabs d <= 3 ->
  Rabs (lanczos_kernel a d - true_sinc d * true_sinc (d / IZR a)) <= 22 / 10 ^ 7 /\
  22 / 10 ^ 7 < 103019 / 10 ^ 10.
Proof. intros a d Ha Hd. split; [apply kernel_close; assumption|lra]. Qed.

(** C20: the value is the sum, over the pixels of the image inside of the
    window, of the pixel values times the separable Lanczos kernel. *)
Theorem C20_value_is_the_kernel_sum :
  forall (im : img R) (a : Z) (y x v : R) (e : bool),
  lanczos_point im a y x = Ok (v, e) ->
  window_sum (nrows im) (ncols im) a y x
    (fun r c => px im r c *
       ((sinc_pade (x - IZR c) * sinc_pade ((x - IZR c) / IZR a)) *
        (sinc_pade (y - IZR r) * sinc_pade ((y - IZR r) / IZR a)))) v.
Proof. exact point_value. Qed.

(** ... and such a sum is unique. *)
Theorem C20_kernel_sum_is_unique :
  forall nr nc a y x f S S',
  window_sum nr nc a y x f S -> window_sum nr nc a y x f S' -> S = S'.
Proof. exact window_sum_unique. Qed.

(** C20: the whole call treats each position on its own, and succeeds for all
    kernel sizes up to 3 and no others. *)
Theorem C20_positions_are_independent :
  forall (F : Type) (FO : FloatOps F) (im : img F) (a : Z) (rows cols vs : list F) (es : list bool),
  (a <= 3)%Z -> length rows = length cols ->
  (lanczos_resample im rows cols a = Ok (vs, es) <->
   length vs = length rows /\ length es = length rows /\
   forall i y x, nth_error rows i = Some y -> nth_error cols i = Some x ->
     exists v e, nth_error vs i = Some v /\ nth_error es i = Some e /\
       lanczos_point im a y x = Ok (v, e)).
Proof.
  intros F FO im a rows cols vs es Ha. unfold lanczos_resample.
  apply Z.leb_le in Ha as ->. apply loop_pointwise.
Qed.

Theorem C20_succeeds_up_to_size_3 :
  forall (F : Type) (FO : FloatOps F) (im : img F) (a : Z) (rows cols : list F),
  length rows = length cols ->
  (forall t, In t rows \/ In t cols -> exists k, ffloor t = Some k) ->
  ((a <= 3)%Z -> exists vs es, lanczos_resample im rows cols a = Ok (vs, es)) /\
  ((3 < a)%Z -> lanczos_resample im rows cols a = Raise AssertionError).
Proof.
  intros F FO im a rows cols Hl Hf. unfold lanczos_resample. split; intros Ha.
  - apply Z.leb_le in Ha as ->. apply loop_total; assumption.
  - destruct (Z.leb_spec a 3); [lia|reflexivity].
Qed.

(** C20: linear in the image. *)
Theorem C20_linear :
  forall (im1 im2 im : img R) (a : Z) (al be y x v1 v2 v : R) e1 e2 e,
  nrows im1 = nrows im -> ncols im1 = ncols im -> nrows im2 = nrows im -> ncols im2 = ncols im ->
  (forall r c, inb im r c -> px im r c = al * px im1 r c + be * px im2 r c) ->
  lanczos_point im1 a y x = Ok (v1, e1) -> lanczos_point im2 a y x = Ok (v2, e2) ->
  lanczos_point im a y x = Ok (v, e) ->
  v = al * v1 + be * v2.
Proof.
  intros im1 im2 im a al be y x v1 v2 v e1 e2 e R1 C1 R2 C2 Hp H1 H2 H.
  apply point_value in H1, H2, H. rewrite R1, C1 in H1. rewrite R2, C2 in H2.
  pose proof (window_sum_linear _ _ _ _ _ _ _ al be _ _ H1 H2) as K.
  eapply window_sum_unique; [exact H|].
  eapply window_sum_ext; [|exact K]. cbv beta. intros r c Hr Hc _ _.
  rewrite (Hp r c); [ring|]. unfold inb. tauto.
Qed.

(** C20: local, in any arithmetic: only pixels of the image whose distance to
    the floor of the position is in the window are read. *)
Theorem C20_local :
  forall (F : Type) (FO : FloatOps F) (im1 im2 : img F) (a : Z) (y x : F) (fy fx : Z),
  ffloor y = Some fy -> ffloor x = Some fx ->
  nrows im1 = nrows im2 -> ncols im1 = ncols im2 ->
  (forall r c, inb im1 r c -> (fy - a < r <= fy + a)%Z -> (fx - a < c <= fx + a)%Z ->
     px im1 r c = px im2 r c) ->
  lanczos_point im1 a y x = lanczos_point im2 a y x.
Proof.
  intros F FO im1 im2 a y x fy fx Hy Hx Hr Hc H.
  rewrite !point_sum, Hy, Hx, <- Hr, <- Hc. f_equal. f_equal.
  assert (K : forall r c, In (r, c) (window_pix (nrows im1) (ncols im1) fy fx a) -> px im1 r c = px im2 r c).
  { intros r c Hin. apply In_window_pix in Hin. apply H; unfold inb; lia. }
  revert K. generalize (@fzero F FO). generalize (window_pix (nrows im1) (ncols im1) fy fx a).
  induction l as [|[r c] l IH]; intros z K; [reflexivity|]. cbn [fold_left fst snd].
  rewrite (K r c) by (left; reflexivity). apply IH. intros r' c' Hin. apply K. right. assumption.
Qed.

(** C20: covariant under whole-pixel shifts, as long as the window meets the
    border of neither image. *)
Theorem C20_shift_covariant :
  forall (im im' : img R) (a i j : Z) (y x v v' : R) e e',
  (forall r c, in_window a y r -> in_window a x c ->
     inb im r c /\ inb im' (r + i) (c + j) /\ px im' (r + i) (c + j) = px im r c) ->
  lanczos_point im a y x = Ok (v, e) ->
  lanczos_point im' a (y + IZR i) (x + IZR j) = Ok (v', e') ->
  v' = v.
Proof.
  intros im im' a i j y x v v' e e' Hw H H'. apply point_value in H, H'.
  eapply window_sum_unique; [exact H'|].
  eapply window_sum_shift; [| |exact H].
  - intros r c Hr Hc. destruct (Hw r c Hr Hc) as (B1 & B2 & _). unfold inb in *. tauto.
  - intros r c Hr Hc. destruct (Hw r c Hr Hc) as (_ & _ & ->). cbv beta.
    rewrite !plus_IZR.
    replace (x + IZR j - (IZR c + IZR j)) with (x - IZR c) by ring.
    replace (y + IZR i - (IZR r + IZR i)) with (y - IZR r) by ring. reflexivity.
Qed.

(** C20: at integer positions the pixel value comes back, times the fixed
    normalisation (1 - 4e-15)^4; outside of the image the value is 0. *)
Theorem C20_integer_positions :
  forall (im : img R) (a r c : Z) (v : R) e,
  (1 <= a <= 3)%Z -> lanczos_point im a (IZR r) (IZR c) = Ok (v, e) ->
  (inb im r c -> v = px im r c * (1 - 4 / 10 ^ 15) ^ 4) /\ (~ inb im r c -> v = 0).
Proof.
  intros im a r c v e Ha H. replace (1 - 4 / 10 ^ 15) with s0 by (unfold s0; field).
  eapply point_integer; eassumption.
Qed.

(** C21, exact arithmetic: the edge flag means that no pixel of the image is
    in the window; the value is then 0. *)
Theorem C21_edge_iff_no_support :
  forall (im : img R) (a : Z) (y x v : R) (e : bool),
  (1 <= nrows im)%Z -> (1 <= ncols im)%Z -> (1 <= a)%Z ->
  lanczos_point im a y x = Ok (v, e) ->
  (e = true <-> forall r c, inb im r c -> ~ (in_window a y r /\ in_window a x c)) /\
  (e = true -> v = 0).
Proof.
  intros im a y x v e Hr Hc Ha H. split.
  - rewrite point_sum in H. cbn [ffloor ROps] in H. inversion H; subst. clear H.
    rewrite (oob_iff _ _ _ _ _ Hr Hc Ha). split.
    + intros H r c Hb Hw. apply (H r c). apply window_pix_spec. unfold inb in Hb. tauto.
    + intros H r c Hin. apply window_pix_spec in Hin. apply (H r c); unfold inb; tauto.
  - intros ->. exact (oob_zero _ _ _ _ _ _ _ Hr Hc Ha H).
Qed.

(** C21, double arithmetic: the same, with the exact values of the doubles. *)
Theorem C21_edge_iff_no_support_double :
  forall (im : img f64) (a : Z) (y x v : f64) (yv xv : R) (e : bool),
  (1 <= nrows im)%Z -> (1 <= ncols im)%Z -> (1 <= a)%Z ->
  f64_is y yv -> f64_is x xv ->
  lanczos_point im a y x = Ok (v, e) ->
  (e = true <-> forall r c, inb im r c -> ~ (in_window a yv r /\ in_window a xv c)) /\
  (e = true -> v = f64_ofZ 0).
Proof.
  intros im a y x v yv xv e Hr Hc Ha Hy Hx H. split.
  - apply (@point_flag f64 F64Ops im a y x v e _ _ (f64_floor_is _ _ Hy) (f64_floor_is _ _ Hx)) in H.
    subst e.
    rewrite (oob_iff _ _ _ _ _ Hr Hc Ha). split.
    + intros H r c Hb Hw. apply (H r c). apply window_pix_spec. unfold inb in Hb. tauto.
    + intros H r c Hin. apply window_pix_spec in Hin. apply (H r c); unfold inb; tauto.
  - intros ->. exact (oob_zero _ _ _ _ _ _ _ Hr Hc Ha H).
Qed.

(** C21: a truncated kernel is not flagged, although the docstring says so:
    position (0, 0) needs pixels at -2 and -1. *)
Theorem C21_truncated_kernel_is_not_flagged :
  exists (im : img f64) (v : f64),
  lanczos_point im 3 (f64_ofZ 0) (f64_ofZ 0) = Ok (v, false) /\ ~ inb im (-2) (-2) /\
  in_window 3 0 (-2).
Proof.
  exists (full 1 1 (f64_ofZ 1)).
  destruct (lanczos_point (full 1 1 (f64_ofZ 1)) 3 (f64_ofZ 0) (f64_ofZ 0)) as [[v e]|] eqn:E;
    [|vm_compute in E; discriminate].
  exists v. assert (He : e = false) by (vm_compute in E; inversion E; reflexivity).
  subst e. split; [reflexivity|]. split; [unfold inb; lia|]. unfold in_window. lra.
Qed.

(** C22: two images at once, in any arithmetic. *)
Theorem C22_two_at_once :
  forall (F : Type) (FO : FloatOps F) (im1 im2 : img F) (rows cols : list F) (a : Z),
  (a <= 3)%Z -> nrows im1 = nrows im2 -> ncols im1 = ncols im2 ->
  match lanczos_resample_two im1 im2 rows cols a with
  | Ok (v1, v2, e) => lanczos_resample im1 rows cols a = Ok (v1, e) /\
                      lanczos_resample im2 rows cols a = Ok (v2, e)
  | Raise ex => lanczos_resample im1 rows cols a = Raise ex /\
                lanczos_resample im2 rows cols a = Raise ex
  end.
Proof.
  intros F FO im1 im2 rows cols a Ha Hr Hc. unfold lanczos_resample.
  apply Z.leb_le in Ha as ->. apply two_eq; assumption.
Qed.

(** C22: the check on the kernel size is missing in the two-image version. *)
Theorem C22_two_accepts_any_size :
  forall (F : Type) (FO : FloatOps F) (im1 im2 : img F) (a : Z),
  (3 < a)%Z -> lanczos_resample_two im1 im2 [] [] a = Ok ([], [], []) /\
  lanczos_resample im1 [] [] a = Raise AssertionError.
Proof.
  intros F FO im1 im2 a Ha. split; [reflexivity|]. unfold lanczos_resample.
  destruct (Z.leb_spec a 3); [lia|reflexivity].
Qed.

(** Concrete: both kinds of position on a 2 x 3 image, in double arithmetic. *)
Example C22_example :
  let im := of_rows (f64_ofZ 0) [[f64_ofZ 1; f64_ofZ 2; f64_ofZ 3]; [f64_ofZ 4; f64_ofZ 5; f64_ofZ 6]] in
  match lanczos_resample_two im im [f64_ofZ 1; f64_ofZ 9] [fdec 3 2; f64_ofZ 0] 3 with
  | Ok (_, _, e) => e = [false; true]
  | Raise _ => False
  end.
Proof. vm_compute. reflexivity. Qed.

(** Concrete: the hypotheses of the shift theorem hold for constant images. *)
Example C20_shift_example :
  forall r c, in_window 1 5 r -> in_window 1 5 c ->
  inb (full 10 10 (1 : R)) r c /\ inb (full 10 10 (1 : R)) (r + 2) (c + 1) /\
  px (full 10 10 (1 : R)) (r + 2) (c + 1) = px (full 10 10 (1 : R)) r c.
Proof.
  intros r c Hr Hc. apply window_floor in Hr, Hc. rewrite (Zfloor_IZR 5) in Hr, Hc.
  unfold inb, full. cbn [nrows ncols px]. repeat split; lia.
Qed.

Print Assumptions C19_denominator_positive.
Print Assumptions C19_even.
Print Assumptions C19_zeros.
Print Assumptions C19_positive_near_zero.
Print Assumptions C19_not_exactly_one_at_zero.
Print Assumptions C19_double_zeros.
Print Assumptions C19_accuracy.
Print Assumptions C19_kernel_accuracy.
Print Assumptions C20_value_is_the_kernel_sum.
Print Assumptions C20_kernel_sum_is_unique.
Print Assumptions C20_positions_are_independent.
Print Assumptions C20_succeeds_up_to_size_3.
Print Assumptions C20_linear.
Print Assumptions C20_local.
Print Assumptions C20_shift_covariant.
Print Assumptions C20_integer_positions.
Print Assumptions C21_edge_iff_no_support.
Print Assumptions C21_edge_iff_no_support_double.
Print Assumptions C21_truncated_kernel_is_not_flagged.
Print Assumptions C22_two_at_once.
Print Assumptions C22_two_accepts_any_size.
