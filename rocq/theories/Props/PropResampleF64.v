(** C63 in double arithmetic. *)
From Coq Require Import ZArith List Bool Lia Reals Lra SpecFloat.
From Flocq Require Import Core.
From Coq Require Import List.
From Verif Require Import Lib.Base Lib.Floats Model.Lanczos Model.SeImage Model.PsfImage Model.Resample
  Spec.FloatSpec Spec.LanczosSpec Spec.SeImageSpec Spec.ResampleSpec Spec.ResampleF64Spec
  Proofs.BaseFacts Proofs.F64Facts Proofs.SliceInputsProofs Proofs.LanczosProofs Proofs.ResampleProofs
  Proofs.LanczosF64 Proofs.ResampleF64 Props.PropLanczos Props.PropResample.
Import ListNotations.
Open Scope Z_scope.

(** C63, double arithmetic: the image, the noise images, the interpolated-only
    image and the interpolated fraction are the same kernel sum of surface
    brightness around the same positions, times the coadd pixel area, up to
    rounding errors of 2^-27 of the largest brightness in the window. *)
Theorem C63_same_kernel_for_all_images_double :
  forall (to_se : Z -> Z -> f64 * f64) (area_se area_coadd : Z -> Z -> f64) (st : se_state) (sl : slice_data)
    (it : interp_data) (x0 y0 n px0 py0 pn : Z) (o : resample_out),
  resample to_se area_se area_coadd st x0 y0 n px0 py0 pn = Ok o ->
  st_slice st = Some sl -> st_interp st = Some it ->
  let resampled (im out : img f64) :=
    resampled_double to_se area_se area_coadd sinc_pade im out y0 x0
      (sl_y_start sl) (sl_x_start sl) n (sl_box_size sl) in
  resampled (sl_image sl) (ro_image o) /\
  Forall2 resampled (sl_noises sl) (ro_noises o) /\
  resampled (it_interp_only_image it) (ro_interp_only_image o) /\
  resampled (it_interp_frac it) (ro_interp_frac o).
Proof.
  intros to_se area_se area_coadd st sl it x0 y0 n px0 py0 pn o H Es Ei resampled.
  destruct (resample_spec to_se area_se area_coadd st y0 x0 n py0 px0 pn o H)
    as (sl' & pf & it' & Es' & _ & Ei' & _ & _ & _ & _ & _ & K).
  rewrite Es in Es'. rewrite Ei in Ei'. injection Es' as <-. injection Ei' as <-.
  cbv zeta in K. destruct K as (K1 & K2 & K3 & K4 & _).
  assert (G : forall im out, resampled_image to_se area_se area_coadd im out (ro_edge o) y0 x0
              (sl_y_start sl) (sl_x_start sl) n (sl_box_size sl) -> resampled im out).
  { intros im out (S1 & S2 & S3 & S4 & P). split; [exact S3|]. split; [exact S4|].
    intros r c row col val area B M Hr Hc Hf HB BB HM Hw.
    destruct (falls_position _ _ _ _ _ _ _ _ _ Hf) as (Fr & Fc & Br & Bc).
    destruct (pixel_near im area_se val area _ _ _ row col B M (sl_y_start sl) (sl_x_start sl) Fr Fc Br Bc HB BB HM)
      as (v & e & s & E & W & (w & Hv & Ew)).
    { rewrite S1, S2. exact Hw. }
    destruct (P r c Hr Hc) as (v' & E' & V').
    assert (Ev : v' = v).
    { pose proof (eq_trans (eq_sym E') E) as Q. injection Q as Q _. exact Q. }
    exists w, s. split; [|split].
    - rewrite V', Ev. exact Hv.
    - rewrite S1, S2 in W. exact W.
    - change (bpow radix2 (-27)) with (/ 134217728)%R.
      replace (/ 134217728 * (M * Rabs B))%R with (Rabs B * M * / 134217728)%R by ring. exact Ew. }
  split; [exact (G _ _ K1)|]. split; [|split; [exact (G _ _ K3)|exact (G _ _ K4)]].
  clear -K2 G. induction K2; constructor; auto.
Qed.

(** C63, double arithmetic: a pixel is marked as edge exactly if the kernel has no
    support there, and then every resampled image is zero, for every coadd pixel
    area that is a finite number. *)
Theorem C63_edge_pixels_are_zero_double :
  forall (to_se : Z -> Z -> f64 * f64) (area_se area_coadd : Z -> Z -> f64) (st : se_state) (sl : slice_data)
    (x0 y0 n px0 py0 pn : Z) (o : resample_out) (r c : Z) (row col B : R),
  resample to_se area_se area_coadd st x0 y0 n px0 py0 pn = Ok o ->
  st_slice st = Some sl -> 1 <= sl_box_size sl ->
  0 <= r < n -> 0 <= c < n ->
  falls_at to_se y0 x0 (sl_y_start sl) (sl_x_start sl) r c row col ->
  f64_is (area_coadd (c + x0) (r + y0)) B ->
  (px (ro_edge o) r c = true <->
   forall i j, 0 <= i < sl_box_size sl -> 0 <= j < sl_box_size sl ->
     ~ (in_window 3 row i /\ in_window 3 col j)) /\
  (px (ro_edge o) r c = true ->
   f64_is (px (ro_image o) r c) 0 /\ Forall (fun nz => f64_is (px nz r c) 0) (ro_noises o) /\
   f64_is (px (ro_interp_only_image o) r c) 0 /\ f64_is (px (ro_interp_frac o) r c) 0).
Proof.
  intros to_se area_se area_coadd st sl x0 y0 n px0 py0 pn o r c row col B H Es Hb Hr Hc Hf HB.
  destruct (falls_position _ _ _ _ _ _ _ _ _ Hf) as (Fr & Fc & Br & Bc).
  destruct (resample_spec to_se area_se area_coadd st y0 x0 n py0 px0 pn o H)
    as (sl' & pf & it' & Es' & _ & Ei' & _ & _ & _ & _ & _ & K).
  rewrite Es in Es'. injection Es' as <-.
  cbv zeta in K. destruct K as (K1 & K2 & K3 & K4 & _).
  assert (G : forall im out, resampled_image to_se area_se area_coadd im out (ro_edge o) y0 x0
              (sl_y_start sl) (sl_x_start sl) n (sl_box_size sl) ->
              (px (ro_edge o) r c = true <->
               forall i j, 0 <= i < sl_box_size sl -> 0 <= j < sl_box_size sl ->
                 ~ (in_window 3 row i /\ in_window 3 col j)) /\
              (px (ro_edge o) r c = true -> f64_is (px out r c) 0)).
  { intros im out (S1 & S2 & S3 & S4 & P). destruct (P r c Hr Hc) as (s & E & V).
    destruct (C21_edge_iff_no_support_double (brightness area_se im (sl_y_start sl) (sl_x_start sl)) 3 _ _ s row col _
                ltac:(cbn [brightness nrows]; lia) ltac:(cbn [brightness ncols]; lia) ltac:(lia) Fr Fc E) as [I Z].
    split.
    - rewrite I. unfold inb. cbn [brightness nrows ncols]. rewrite S1, S2. split.
      + intros Q i j Hi Hj. apply Q. split; assumption.
      + intros Q i j [Hi Hj]. apply Q; assumption.
    - intros Et. rewrite V, (Z Et). apply (mul_zero_is _ _ 0 B); [apply f64_ofZ_is; cbn; lia|exact HB|ring]. }
  split; [exact (proj1 (G _ _ K1))|]. intros Et.
  split; [exact (proj2 (G _ _ K1) Et)|]. split; [|split; [exact (proj2 (G _ _ K3) Et)|exact (proj2 (G _ _ K4) Et)]].
  clear -K2 G Et. induction K2 as [|im out ims outs Hr' K2 IH]; constructor; auto.
  exact (proj2 (G _ _ Hr') Et).
Qed.

(** Concrete: a 2 x 2 stamp at a place where a coadd region of the same size falls
    onto it, pixel by pixel. *)
Definition ex_state : se_state (F := f64) :=
  mkstate (Some (ex_slice (full 2 2 0))) (Some ex_psf)
    (Some (mkinterp (full 2 2 0) (full 2 2 (f64_ofZ 0)) (full 2 2 (f64_ofZ 3)) (full 2 2 (f64_ofZ 0)))).

Example C63_example_double :
  (exists o, resample ex_to_se ex_unit ex_unit ex_state 0 1 2 0 0 3 = Ok o /\
     px (ro_edge o) 1 1 = false) /\
  (forall r c, 0 <= r < 2 -> 0 <= c < 2 -> falls_at ex_to_se 1 0 10 20 r c (IZR r) (IZR c)) /\
  (forall r c, 0 <= r < 2 -> 0 <= c < 2 ->
     bright_window ex_unit (sl_image (ex_slice (full 2 2 0))) 10 20 2 (IZR r) (IZR c)
       (fun i j => IZR (1 + i + 2 * j)) (fun _ _ => 1%R) 4%R).
Proof.
  split; [|split].
  - destruct (resample ex_to_se ex_unit ex_unit ex_state 0 1 2 0 0 3) as [o|] eqn:E.
    + exists o. split; [reflexivity|].
      assert (K : match resample ex_to_se ex_unit ex_unit ex_state 0 1 2 0 0 3 with
                  | Ok o => px (ro_edge o) 1 1 | Raise _ => true end = false) by (vm_compute; reflexivity).
      rewrite E in K. exact K.
    + exfalso. assert (K : match resample ex_to_se ex_unit ex_unit ex_state 0 1 2 0 0 3 with
                  | Ok o => true | Raise _ => false end = true) by (vm_compute; reflexivity).
      rewrite E in K. discriminate K.
  - intros r c Hr Hc. exists (IZR (r + 10)), (IZR (c + 20)).
    unfold ex_to_se. cbn [fst snd].
    replace (r + 1 + 9) with (r + 10) by ring. replace (c + 0 + 20) with (c + 20) by ring.
    split; [apply f64_ofZ_is; lia|]. split; [apply f64_ofZ_is; lia|].
    rewrite <- !minus_IZR. replace (r + 10 - 10) with r by ring. replace (c + 20 - 20) with c by ring.
    split; [symmetry; apply rnd_id, int_format; lia|]. split; [symmetry; apply rnd_id, int_format; lia|].
    rewrite <- !abs_IZR. assert (IZR (Z.abs r) <= 2 ^ 52 /\ IZR (Z.abs c) <= 2 ^ 52)%R.
    { assert (IZR (Z.abs r) <= 2)%R by (apply IZR_le; lia). assert (IZR (Z.abs c) <= 2)%R by (apply IZR_le; lia). lra. }
    repeat split; try tauto; cbn; lia.
  - intros r c Hr Hc i j Hi Hj _ _. cbn [ex_slice sl_image full px]. unfold ex_unit.
    split; [apply f64_ofZ_is; lia|]. split; [apply f64_ofZ_is; cbn; lia|]. split; [lra|].
    unfold Rdiv. rewrite Rinv_1, Rmult_1_r, <- abs_IZR. apply IZR_le. lia.
Qed.

Print Assumptions C63_same_kernel_for_all_images_double.
Print Assumptions C63_edge_pixels_are_zero_double.
