(** C41, C42, C63, C64: resampling of single epoch slices. *)
From Coq Require Import ZArith List Bool Reals Lia Lra.
From Flocq Require Import Core.Raux Core.Zaux.
From Verif Require Import Lib.Base Lib.Floats Model.Lanczos Model.SeImage Model.PsfImage Model.Resample
  Spec.FloatSpec Spec.LanczosSpec Spec.SeImageSpec Spec.ResampleSpec Proofs.BaseFacts
  Proofs.SliceInputsProofs Proofs.LanczosProofs Proofs.ResampleProofs Proofs.SliceBoundsF64
  Proofs.NearestF64 Props.PropLanczos.
Import ListNotations.
Open Scope Z_scope.

(** C41: the bit mask and pixel mask of a resampled image are those of the
    slice pixel whose centre is nearest to the mapped position, or the edge bit
    if that is outside, for mapped positions from -1/2 up; the pixel mask also
    gets the resampling bit where the kernel has no support. *)
Theorem C41_masks_of_the_nearest_pixel :
  forall (to_se : Z -> Z -> R * R) (area_se area_coadd : Z -> Z -> R) (st : se_state) (sl : slice_data)
    (it : interp_data) (x0 y0 n px0 py0 pn : Z) (o : resample_out) (r c i j : Z),
  resample to_se area_se area_coadd st x0 y0 n px0 py0 pn = Ok o ->
  st_slice st = Some sl -> st_interp st = Some it ->
  0 <= r < n -> 0 <= c < n ->
  let row := fst (position to_se y0 x0 (sl_y_start sl) (sl_x_start sl) r c) in
  let col := snd (position to_se y0 x0 (sl_y_start sl) (sl_x_start sl) r c) in
  (- / 2 <= row)%R -> (- / 2 <= col)%R -> (row < IZR (2 ^ 63 - 1))%R -> (col < IZR (2 ^ 63 - 1))%R ->
  nearest row i -> nearest col j ->
  let nr := nrows (sl_bmask sl) in
  let nc := ncols (sl_bmask sl) in
  mask_value (sl_bmask sl) nr nc i j (px (ro_bmask o) r c) /\
  exists v, mask_value (it_pmask it) nr nc i j v /\
    px (ro_pmask o) r c = if px (ro_edge o) r c then Z.lor v (2 ^ 26) else v.
Proof.
  intros to_se area_se area_coadd st sl it x0 y0 n px0 py0 pn o r c i j H Es Ei Hr Hc row col
    R1 C1 R2 C2 Ni Nj nr nc.
  destruct (resample_spec to_se area_se area_coadd st y0 x0 n py0 px0 pn o H)
    as (sl' & pf & it' & Es' & _ & Ei' & _ & _ & _ & _ & _ & K).
  rewrite Es in Es'. rewrite Ei in Ei'. injection Es' as <-. injection Ei' as <-.
  cbv zeta in K. destruct K as (_ & _ & _ & _ & L & pm & Lp & _ & _ & Hp).
  assert (V : int64_position row) by (split; [rewrite opp_IZR; pose proof (IZR_le 1 (2 ^ 63) ltac:(lia)); lra|exact R2]).
  assert (U : int64_position col) by (split; [rewrite opp_IZR; pose proof (IZR_le 1 (2 ^ 63) ltac:(lia)); lra|exact C2]).
  pose proof (nearest_truncated row i R1 Ni) as Ti. pose proof (nearest_truncated col j C1 Nj) as Tj.
  split.
  - exact (looked_up_R _ _ _ _ _ _ _ _ _ _ _ _ _ L Hr Hc V U Ti Tj).
  - exists (px pm r c). split; [|exact (Hp r c Hr Hc)].
    exact (looked_up_R _ _ _ _ _ _ _ _ _ _ _ _ _ Lp Hr Hc V U Ti Tj).
Qed.

(** For positions below -1/2 the index is rounded towards zero instead. *)
Theorem C41_masks_for_all_positions :
  forall (to_se : Z -> Z -> R * R) (area_se area_coadd : Z -> Z -> R) (st : se_state) (sl : slice_data)
    (it : interp_data) (x0 y0 n px0 py0 pn : Z) (o : resample_out) (r c i j : Z),
  resample to_se area_se area_coadd st x0 y0 n px0 py0 pn = Ok o ->
  st_slice st = Some sl -> st_interp st = Some it ->
  0 <= r < n -> 0 <= c < n ->
  let row := fst (position to_se y0 x0 (sl_y_start sl) (sl_x_start sl) r c) in
  let col := snd (position to_se y0 x0 (sl_y_start sl) (sl_x_start sl) r c) in
  int64_position row -> int64_position col ->
  truncated row i -> truncated col j ->
  let nr := nrows (sl_bmask sl) in
  let nc := ncols (sl_bmask sl) in
  mask_value (sl_bmask sl) nr nc i j (px (ro_bmask o) r c) /\
  exists v, mask_value (it_pmask it) nr nc i j v /\
    px (ro_pmask o) r c = if px (ro_edge o) r c then Z.lor v (2 ^ 26) else v.
Proof.
  intros to_se area_se area_coadd st sl it x0 y0 n px0 py0 pn o r c i j H Es Ei Hr Hc row col
    V U Ti Tj nr nc.
  destruct (resample_spec to_se area_se area_coadd st y0 x0 n py0 px0 pn o H)
    as (sl' & pf & it' & Es' & _ & Ei' & _ & _ & _ & _ & _ & K).
  rewrite Es in Es'. rewrite Ei in Ei'. injection Es' as <-. injection Ei' as <-.
  cbv zeta in K. destruct K as (_ & _ & _ & _ & L & pm & Lp & _ & _ & Hp).
  split.
  - exact (looked_up_R _ _ _ _ _ _ _ _ _ _ _ _ _ L Hr Hc V U Ti Tj).
  - exists (px pm r c). split; [|exact (Hp r c Hr Hc)].
    exact (looked_up_R _ _ _ _ _ _ _ _ _ _ _ _ _ Lp Hr Hc V U Ti Tj).
Qed.

(** Positions that are not finite or do not fit in 64 bit integers get the edge bit, in
    any arithmetic. *)
Theorem C41_unrepresentable_is_outside :
  forall (F : Type) (FO : FloatOps F) (to_se : Z -> Z -> F * F) (area_se area_coadd : Z -> Z -> F)
    (st : se_state) (sl : slice_data) (x0 y0 n px0 py0 pn : Z) (o : resample_out) (r c : Z),
  resample to_se area_se area_coadd st x0 y0 n px0 py0 pn = Ok o ->
  st_slice st = Some sl -> 0 <= r < n -> 0 <= c < n ->
  let p := to_se (c + x0) (r + y0) in
  unrepresentable (ftrunc (fadd (fsub (snd p) (fofZ (sl_y_start sl))) fhalf)) \/
  unrepresentable (ftrunc (fadd (fsub (fst p) (fofZ (sl_x_start sl))) fhalf)) ->
  px (ro_bmask o) r c = 2 ^ 29 /\
  px (ro_pmask o) r c = if px (ro_edge o) r c then Z.lor (2 ^ 29) (2 ^ 26) else 2 ^ 29.
Proof.
  intros F FO to_se area_se area_coadd st sl x0 y0 n px0 py0 pn o r c H Es Hr Hc p U.
  destruct (resample_spec to_se area_se area_coadd st y0 x0 n py0 px0 pn o H)
    as (sl' & pf & it' & Es' & _ & Ei' & _ & _ & _ & _ & _ & K).
  rewrite Es in Es'. injection Es' as <-.
  cbv zeta in K. destruct K as (_ & _ & _ & _ & L & pm & Lp & _ & _ & Hp).
  destruct L as (_ & _ & L). destruct Lp as (_ & _ & Lp).
  specialize (L r c Hr Hc). specialize (Lp r c Hr Hc).
  unfold mask_at, mask_index, position in L, Lp. fold p in L, Lp. cbn [fst snd] in L, Lp.
  assert (G : forall P Q, P < 0 \/ Q < 0 -> forall nr nc, ~ (0 <= P < nr /\ 0 <= Q < nc)) by lia.
  assert (N : int64_of (ftrunc (fadd (fsub (snd p) (fofZ (sl_y_start sl))) fhalf)) < 0 \/
              int64_of (ftrunc (fadd (fsub (fst p) (fofZ (sl_x_start sl))) fhalf)) < 0)
    by (destruct U as [U|U]; apply unrepresentable_negative in U; auto).
  split; [apply L, G, N|]. rewrite (Hp r c Hr Hc), (proj2 Lp) by apply G, N. reflexivity.
Qed.

(** So a coadd pixel that falls up to a pixel below or left of the slice gets
    the mask of row or column 0 and not the edge bit. *)
Theorem C41_position_outside_gets_first_row_refuted :
  forall (to_se : Z -> Z -> R * R) (area_se area_coadd : Z -> Z -> R) (st : se_state) (sl : slice_data)
    (it : interp_data) (x0 y0 n px0 py0 pn : Z) (o : resample_out) (r c j : Z),
  resample to_se area_se area_coadd st x0 y0 n px0 py0 pn = Ok o ->
  st_slice st = Some sl -> st_interp st = Some it ->
  0 <= r < n -> 0 <= c < n ->
  let row := fst (position to_se y0 x0 (sl_y_start sl) (sl_x_start sl) r c) in
  let col := snd (position to_se y0 x0 (sl_y_start sl) (sl_x_start sl) r c) in
  (- (3 / 2) < row < - / 2)%R -> int64_position col -> (- / 2 <= col)%R -> nearest col j ->
  0 <= j < ncols (sl_bmask sl) -> 1 <= nrows (sl_bmask sl) ->
  nearest row (-1) /\ px (ro_bmask o) r c = px (sl_bmask sl) 0 j.
Proof.
  intros to_se area_se area_coadd st sl it x0 y0 n px0 py0 pn o r c j H Es Ei Hr Hc row col Hrow U C1 Nj Hj Hn.
  split; [unfold nearest; lra|].
  assert (V : int64_position row).
  { unfold int64_position. pose proof (IZR_le (- 2 ^ 63) (-2) ltac:(lia)).
    pose proof (IZR_le 1 (2 ^ 63 - 1) ltac:(lia)). lra. }
  assert (T : truncated row 0) by (right; lra).
  destruct (C41_masks_for_all_positions to_se area_se area_coadd st sl it x0 y0 n px0 py0 pn o r c 0 j
              H Es Ei Hr Hc V U T (nearest_truncated col j C1 Nj)) as [[M _] _].
  apply M. lia.
Qed.

(** C41, double arithmetic: for positions and starts up to 2^30 the pixel is one
    whose centre is within half a pixel and 2^-20 of the mapped position. *)
Theorem C41_masks_of_the_nearest_pixel_double :
  forall (to_se : Z -> Z -> f64 * f64) (area_se area_coadd : Z -> Z -> f64) (st : se_state)
    (sl : slice_data) (it : interp_data) (x0 y0 n px0 py0 pn : Z) (o : resample_out) (r c : Z)
    (y x : R),
  resample to_se area_se area_coadd st x0 y0 n px0 py0 pn = Ok o ->
  st_slice st = Some sl -> st_interp st = Some it ->
  0 <= r < n -> 0 <= c < n ->
  f64_is (snd (to_se (c + x0) (r + y0))) y -> f64_is (fst (to_se (c + x0) (r + y0))) x ->
  (Rabs y <= bpow radix2 30)%R -> (Rabs x <= bpow radix2 30)%R ->
  Z.abs (sl_y_start sl) <= 2 ^ 30 -> Z.abs (sl_x_start sl) <= 2 ^ 30 ->
  let row := (y - IZR (sl_y_start sl))%R in
  let col := (x - IZR (sl_x_start sl))%R in
  (- / 2 <= row)%R -> (- / 2 <= col)%R ->
  let nr := nrows (sl_bmask sl) in
  let nc := ncols (sl_bmask sl) in
  exists i j,
    (Rabs (row - IZR i) <= / 2 + bpow radix2 (-20))%R /\
    (Rabs (col - IZR j) <= / 2 + bpow radix2 (-20))%R /\
    mask_value (sl_bmask sl) nr nc i j (px (ro_bmask o) r c) /\
    exists v, mask_value (it_pmask it) nr nc i j v /\
      px (ro_pmask o) r c = if px (ro_edge o) r c then Z.lor v (2 ^ 26) else v.
Proof.
  intros to_se area_se area_coadd st sl it x0 y0 n px0 py0 pn o r c y x H Es Ei Hr Hc Hy Hx By Bx Sy Sx
    row col Pr Pc nr nc.
  destruct (resample_spec to_se area_se area_coadd st y0 x0 n py0 px0 pn o H)
    as (sl' & pf & it' & Es' & _ & Ei' & _ & _ & _ & _ & _ & K).
  rewrite Es in Es'. rewrite Ei in Ei'. injection Es' as <-. injection Ei' as <-.
  cbv zeta in K. destruct K as (_ & _ & _ & _ & L & pm & Lp & _ & _ & Hp).
  destruct L as (_ & _ & L). destruct Lp as (_ & _ & Lp).
  specialize (L r c Hr Hc). specialize (Lp r c Hr Hc).
  unfold mask_at, position in L, Lp. cbn [fst snd] in L, Lp.
  exists (mask_index (fsub (snd (to_se (c + x0) (r + y0))) (fofZ (sl_y_start sl)))),
         (mask_index (fsub (fst (to_se (c + x0) (r + y0))) (fofZ (sl_x_start sl)))).
  split; [exact (trunc_index_f64 _ _ _ Hy By Sy Pr)|].
  split; [exact (trunc_index_f64 _ _ _ Hx Bx Sx Pc)|].
  split; [exact L|]. exists (px pm r c). split; [exact Lp|exact (Hp r c Hr Hc)].
Qed.

(** Concrete: a region of four coadd pixels over a slice of 2 x 2 pixels that
    starts at (10, 20), shifted by a row; the first row of the region is a pixel
    outside, which the mask does not show, the last column is beyond the slice. *)
Definition ex_slice (bmask : img Z) : slice_data (F := f64) :=
  mkslice 20 10 2 (mkimg 2 2 (fun r c => f64_ofZ (1 + r + 2 * c))) (full 2 2 (f64_ofZ 1))
    bmask [full 2 2 (f64_ofZ 3)].
Definition ex_psf : psf_data (F := f64) := mkpsf (full 3 3 (f64_ofZ 1)) 20 10 3.
Definition ex_to_se (x y : Z) : f64 * f64 := (f64_ofZ (x + 20), f64_ofZ (y + 9)).
(** The largest double below 1/2. *)
Definition f64_sub_half : f64 := SpecFloat.S754_finite false 9007199254740991 (-54).
Definition ex_unit (x y : Z) : f64 := f64_ofZ 1.

Example C41_example :
  let st := mkstate (Some (ex_slice (mkimg 2 2 (fun r c => 1 + r + 2 * c)))) (Some ex_psf)
              (Some (mkinterp (mkimg 2 2 (fun r c => 16 * (1 + r + 2 * c)))
                       (full 2 2 (f64_ofZ 0)) (full 2 2 (f64_ofZ 0)) (full 2 2 (f64_ofZ 0)))) in
  match resample ex_to_se ex_unit ex_unit st 0 0 3 0 0 3 with
  | Ok o => ravel (ro_bmask o) = [1; 3; 2 ^ 29; 1; 3; 2 ^ 29; 2; 4; 2 ^ 29] /\
            ravel (ro_pmask o) = [16; 48; 2 ^ 29; 16; 48; 2 ^ 29; 32; 64; 2 ^ 29]
  | Raise _ => False
  end.
Proof. vm_compute. repeat split. Qed.

(** The rounding matters: the largest double below one half is nearest to pixel 0
    but gets the mask of pixel 1. *)
Theorem C41_just_below_one_half_refuted :
  let p := f64_sub_half in
  let st := mkstate (Some (mkslice 0 0 2 (full 2 2 (f64_ofZ 1)) (full 2 2 (f64_ofZ 1))
              (mkimg 2 2 (fun r c => 1 + r + 2 * c)) [full 2 2 (f64_ofZ 3)])) (Some ex_psf)
              (Some (mkinterp (full 2 2 0)
                       (full 2 2 (f64_ofZ 0)) (full 2 2 (f64_ofZ 0)) (full 2 2 (f64_ofZ 0)))) in
  fltb p (fhalf : f64) = true /\ fltb (f64_ofZ 0) p = true /\
  match resample (fun x y => (f64_ofZ 0, p)) ex_unit ex_unit st 0 0 1 0 0 1 with
  | Ok o => px (ro_bmask o) 0 0 = 2
  | Raise _ => False
  end.
Proof. vm_compute. repeat split. Qed.

(** C42: every slice pixel gets the value of the coadd pixel nearest to its
    mapped position, or zero if that is outside; it needs a slice. *)
Theorem C42_nearest_coadd_pixel :
  forall (A : Type) (zero : A) (to_coadd : Z -> Z -> R * R) (image : img A) (x_start y_start : Z)
    (st : se_state) (sl : slice_data),
  st_slice st = Some sl ->
  exists out, map_image_by_nearest_pixel zero to_coadd image x_start y_start st = Ok out /\
    nrows out = sl_box_size sl /\ ncols out = sl_box_size sl /\
    forall r c i j, 0 <= r < sl_box_size sl -> 0 <= c < sl_box_size sl ->
      let p := to_coadd (c + sl_x_start sl) (r + sl_y_start sl) in
      let row := (snd p - IZR y_start)%R in
      let col := (fst p - IZR x_start)%R in
      int64_position row -> int64_position col -> nearest row i -> nearest col j ->
      (inb image i j -> px out r c = px image i j) /\ (~ inb image i j -> px out r c = zero).
Proof.
  intros A zero to_coadd image x0 y0 st sl E.
  destruct (map_image_spec zero to_coadd image x0 y0 st sl E) as (out & E1 & S1 & S2 & P).
  exists out. split; [exact E1|]. split; [exact S1|]. split; [exact S2|].
  intros r c i j Hr Hc p row col V U Ni Nj. specialize (P r c Hr Hc). cbv zeta in P. fold p in P.
  change (fsub (snd p) (fofZ y0)) with row in P. change (fsub (fst p) (fofZ x0)) with col in P.
  rewrite (nearest_floor row i V Ni), (nearest_floor col j U Nj) in P. exact P.
Qed.

(** C42, double arithmetic: a coadd pixel whose centre is within half a pixel and
    2^-20 of the mapped position, for positions and starts up to 2^30. *)
Theorem C42_nearest_coadd_pixel_double :
  forall (A : Type) (zero : A) (to_coadd : Z -> Z -> f64 * f64) (image : img A) (x_start y_start : Z)
    (st : se_state) (sl : slice_data),
  st_slice st = Some sl -> Z.abs x_start <= 2 ^ 30 -> Z.abs y_start <= 2 ^ 30 ->
  exists out, map_image_by_nearest_pixel zero to_coadd image x_start y_start st = Ok out /\
    nrows out = sl_box_size sl /\ ncols out = sl_box_size sl /\
    forall r c y x, 0 <= r < sl_box_size sl -> 0 <= c < sl_box_size sl ->
      let p := to_coadd (c + sl_x_start sl) (r + sl_y_start sl) in
      f64_is (snd p) y -> f64_is (fst p) x ->
      (Rabs y <= bpow radix2 30)%R -> (Rabs x <= bpow radix2 30)%R ->
      exists i j,
        (Rabs (y - IZR y_start - IZR i) <= / 2 + bpow radix2 (-20))%R /\
        (Rabs (x - IZR x_start - IZR j) <= / 2 + bpow radix2 (-20))%R /\
        (inb image i j -> px out r c = px image i j) /\ (~ inb image i j -> px out r c = zero).
Proof.
  intros A zero to_coadd image x0 y0 st sl E Sx Sy.
  destruct (map_image_spec zero to_coadd image x0 y0 st sl E) as (out & E1 & S1 & S2 & P).
  exists out. split; [exact E1|]. split; [exact S1|]. split; [exact S2|].
  intros r c y x Hr Hc p Hy Hx By Bx. specialize (P r c Hr Hc). cbv zeta in P. fold p in P.
  exists (int64_of (ffloor (fadd (fsub (snd p) (fofZ y0)) fhalf))),
         (int64_of (ffloor (fadd (fsub (fst p) (fofZ x0)) fhalf))).
  split; [exact (floor_index_f64 _ _ _ Hy By Sy)|].
  split; [exact (floor_index_f64 _ _ _ Hx Bx Sx)|]. exact P.
Qed.

Theorem C42_needs_a_slice :
  forall (F : Type) (FO : FloatOps F) (A : Type) (zero : A) to_coadd (image : img A) x_start y_start
    (st : se_state (F := F)),
  st_slice st = None ->
  map_image_by_nearest_pixel zero to_coadd image x_start y_start st = Raise RuntimeError.
Proof. intros F FO A zero to_coadd image x0 y0 st H. unfold map_image_by_nearest_pixel. now rewrite H. Qed.

(** Positions that are not finite or do not fit in 64 bit integers count as outside,
    in any arithmetic. *)
Theorem C42_unrepresentable_is_outside :
  forall (F : Type) (FO : FloatOps F) (A : Type) (zero : A) to_coadd (image out : img A) x_start y_start
    (st : se_state (F := F)) sl r c,
  st_slice st = Some sl ->
  map_image_by_nearest_pixel zero to_coadd image x_start y_start st = Ok out ->
  0 <= r < sl_box_size sl -> 0 <= c < sl_box_size sl ->
  let p := to_coadd (c + sl_x_start sl) (r + sl_y_start sl) in
  unrepresentable (ffloor (fadd (fsub (fst p) (fofZ x_start)) fhalf)) \/
  unrepresentable (ffloor (fadd (fsub (snd p) (fofZ y_start)) fhalf)) ->
  px out r c = zero.
Proof.
  intros F FO A zero to_coadd image out x0 y0 st sl r c Es E Hr Hc p H.
  destruct (map_image_spec zero to_coadd image x0 y0 st sl Es) as (out' & E1 & _ & _ & P).
  rewrite E in E1. apply Ok_inj in E1 as <-. apply (P r c Hr Hc). fold p. unfold inb.
  destruct H as [H|H]; apply unrepresentable_negative in H; lia.
Qed.

(** Concrete: a 2 x 2 slice, one pixel of which is outside of the coadd slice. *)
Example C42_example :
  match map_image_by_nearest_pixel 0 (fun x y => (f64_ofZ (x - 19), fdec (2 * y - 21) 2))
          (mkimg 2 2 (fun r c => 5 + r + 2 * c)) 0 0
          (mkstate (Some (ex_slice (full 2 2 0))) None None) with
  | Ok out => ravel out = [7; 0; 8; 0]
  | Raise _ => False
  end.
Proof. vm_compute. reflexivity. Qed.

(** C63: the image, the noise images, the interpolated-only image and the
    interpolated fraction are all the same kernel sum of surface brightness
    (value over SE pixel area) around the same positions, times the coadd pixel
    area. *)
Theorem C63_same_kernel_for_all_images :
  forall (to_se : Z -> Z -> R * R) (area_se area_coadd : Z -> Z -> R) (st : se_state) (sl : slice_data)
    (it : interp_data) (x0 y0 n px0 py0 pn : Z) (o : resample_out),
  resample to_se area_se area_coadd st x0 y0 n px0 py0 pn = Ok o ->
  st_slice st = Some sl -> st_interp st = Some it ->
  let resampled (im out : img R) :=
    nrows out = n /\ ncols out = n /\
    forall r c, 0 <= r < n -> 0 <= c < n ->
    let row := fst (position to_se y0 x0 (sl_y_start sl) (sl_x_start sl) r c) in
    let col := snd (position to_se y0 x0 (sl_y_start sl) (sl_x_start sl) r c) in
    exists s, px out r c = (s * area_coadd (c + x0)%Z (r + y0)%Z)%R /\
      window_sum (sl_box_size sl) (sl_box_size sl) 3 row col
        (fun i j => px im i j / area_se (j + sl_x_start sl)%Z (i + sl_y_start sl)%Z *
                    (lanczos_kernel 3 (col - IZR j) * lanczos_kernel 3 (row - IZR i)))%R s in
  resampled (sl_image sl) (ro_image o) /\
  Forall2 resampled (sl_noises sl) (ro_noises o) /\
  resampled (it_interp_only_image it) (ro_interp_only_image o) /\
  resampled (it_interp_frac it) (ro_interp_frac o).
Proof.
  intros to_se area_se area_coadd st sl it x0 y0 n px0 py0 pn o H Es Ei resampled.
  destruct (resample_spec to_se area_se area_coadd st y0 x0 n py0 px0 pn o H)
    as (sl' & pf & it' & Es' & _ & Ei' & _ & _ & _ & _ & _ & K).
  rewrite Es in Es'. rewrite Ei in Ei'. injection Es' as <-. injection Ei' as <-.
  cbv zeta in K. destruct K as (K1 & K2 & K3 & K4 & _).
  assert (G : forall im out, resampled_image to_se area_se area_coadd im out (ro_edge o) y0 x0
              (sl_y_start sl) (sl_x_start sl) n (sl_box_size sl) -> resampled im out).
  { intros im out (S1 & S2 & S3 & S4 & P). split; [exact S3|]. split; [exact S4|].
    intros r c Hr Hc row col. destruct (P r c Hr Hc) as (s & E & V). exists s. split; [exact V|].
    apply point_value in E. cbn [brightness nrows ncols px] in E. rewrite S1, S2 in E. exact E. }
  split; [exact (G _ _ K1)|]. split; [|split; [exact (G _ _ K3)|exact (G _ _ K4)]].
  clear -K2 G. induction K2; constructor; auto.
Qed.

(** C63: a pixel is marked as edge exactly if the kernel has no support there,
    and then every resampled image is zero. *)
Theorem C63_edge_pixels_are_zero :
  forall (to_se : Z -> Z -> R * R) (area_se area_coadd : Z -> Z -> R) (st : se_state) (sl : slice_data)
    (x0 y0 n px0 py0 pn : Z) (o : resample_out) (r c : Z),
  resample to_se area_se area_coadd st x0 y0 n px0 py0 pn = Ok o ->
  st_slice st = Some sl -> 1 <= sl_box_size sl ->
  0 <= r < n -> 0 <= c < n ->
  let row := fst (position to_se y0 x0 (sl_y_start sl) (sl_x_start sl) r c) in
  let col := snd (position to_se y0 x0 (sl_y_start sl) (sl_x_start sl) r c) in
  (px (ro_edge o) r c = true <->
   forall i j, 0 <= i < sl_box_size sl -> 0 <= j < sl_box_size sl ->
     ~ (in_window 3 row i /\ in_window 3 col j)) /\
  (px (ro_edge o) r c = true ->
   px (ro_image o) r c = 0%R /\ Forall (fun nz => px nz r c = 0%R) (ro_noises o) /\
   px (ro_interp_only_image o) r c = 0%R /\ px (ro_interp_frac o) r c = 0%R).
Proof.
  intros to_se area_se area_coadd st sl x0 y0 n px0 py0 pn o r c H Es Hb Hr Hc row col.
  destruct (resample_spec to_se area_se area_coadd st y0 x0 n py0 px0 pn o H)
    as (sl' & pf & it' & Es' & _ & Ei' & _ & _ & _ & _ & _ & K).
  rewrite Es in Es'. injection Es' as <-.
  cbv zeta in K. destruct K as (K1 & K2 & K3 & K4 & _).
  assert (G : forall im out, resampled_image to_se area_se area_coadd im out (ro_edge o) y0 x0
              (sl_y_start sl) (sl_x_start sl) n (sl_box_size sl) ->
              (px (ro_edge o) r c = true <->
               forall i j, 0 <= i < sl_box_size sl -> 0 <= j < sl_box_size sl ->
                 ~ (in_window 3 row i /\ in_window 3 col j)) /\
              (px (ro_edge o) r c = true -> px out r c = 0%R)).
  { intros im out (S1 & S2 & S3 & S4 & P). destruct (P r c Hr Hc) as (s & E & V).
    destruct (C21_edge_iff_no_support (brightness area_se im (sl_y_start sl) (sl_x_start sl)) 3 _ _ s _
                ltac:(cbn [brightness nrows]; lia) ltac:(cbn [brightness ncols]; lia) ltac:(lia) E) as [I Z].
    split.
    - rewrite I. unfold inb. cbn [brightness nrows ncols]. rewrite S1, S2. fold row col. split.
      + intros Q i j Hi Hj. apply Q. split; assumption.
      + intros Q i j [Hi Hj]. apply Q; assumption.
    - intros Et. rewrite V, (Z Et). cbn [fmul ROps]. lra. }
  split; [exact (proj1 (G _ _ K1))|]. intros Et.
  split; [exact (proj2 (G _ _ K1) Et)|]. split; [|split; [exact (proj2 (G _ _ K3) Et)|exact (proj2 (G _ _ K4) Et)]].
  clear -K2 G Et. induction K2 as [|im out ims outs Hr' K2 IH]; constructor; auto.
  exact (proj2 (G _ _ Hr') Et).
Qed.

(** C63: resampling succeeds for a complete object with consistent array shapes
    and finite positions, in any arithmetic. *)
Theorem C63_resampling_succeeds :
  forall (F : Type) (FO : FloatOps F) (to_se : Z -> Z -> F * F) (area_se area_coadd : Z -> Z -> F)
    (st : se_state) (sl : slice_data) (pf : psf_data) (it : interp_data) (x0 y0 n px0 py0 pn : Z),
  st_slice st = Some sl -> st_psf st = Some pf -> st_interp st = Some it ->
  let square (a : img F) m := nrows a = m /\ ncols a = m in
  square (sl_image sl) (sl_box_size sl) ->
  Forall (fun a => square a (sl_box_size sl)) (sl_noises sl) ->
  square (it_interp_only_image it) (sl_box_size sl) -> square (it_interp_frac it) (sl_box_size sl) ->
  square (pf_psf pf) (pf_box_size pf) ->
  nrows (sl_bmask sl) <= nrows (it_pmask it) -> ncols (sl_bmask sl) <= ncols (it_pmask it) ->
  finite_positions to_se y0 x0 (sl_y_start sl) (sl_x_start sl) n ->
  (forall r c, 0 <= r < pn -> 0 <= c < pn ->
     (exists k, ffloor (fadd (fst (position to_se py0 px0 (pf_y_start pf) (pf_x_start pf) r c)) fzero) = Some k) /\
     (exists k, ffloor (fadd (snd (position to_se py0 px0 (pf_y_start pf) (pf_x_start pf) r c)) fzero) = Some k)) ->
  exists o, resample to_se area_se area_coadd st x0 y0 n px0 py0 pn = Ok o.
Proof.
  intros F FO to_se area_se area_coadd st sl pf it x0 y0 n px0 py0 pn.
  exact (resample_total to_se area_se area_coadd st sl pf it y0 x0 n py0 px0 pn).
Qed.

(** C64: for every history of successful setter calls on a new object,
    resampling raises RuntimeError exactly if one of the three setters was never
    called; before any slice was set, setting interpolated images fails. *)
Theorem C64_setters_are_required :
  forall (F : Type) (FO : FloatOps F) (to_se : Z -> Z -> F * F) (area_se area_coadd : Z -> Z -> F)
    (ops : list se_op) (st : se_state) (x0 y0 n px0 py0 pn : Z),
  run_ops ops new_state = Ok st ->
  ~ ((exists sl, In (OpSlice sl) ops) /\ (exists pf, In (OpPsf pf) ops) /\
     (exists im nz m, In (OpInterp im nz m) ops)) ->
  resample to_se area_se area_coadd st x0 y0 n px0 py0 pn = Raise RuntimeError.
Proof.
  intros F FO to_se area_se area_coadd ops st x0 y0 n px0 py0 pn H N.
  apply resample_missing. destruct (ops_state ops new_state st H) as (H1 & H2 & H3).
  destruct (st_slice st) as [sl|]; [|auto]. destruct (st_psf st) as [pf|]; [|auto].
  destruct (st_interp st) as [it|]; [|auto]. exfalso. apply N. split; [|split].
  - destruct (H1 ltac:(discriminate)) as [|K]; [now cbn in *|exact K].
  - destruct (H2 ltac:(discriminate)) as [|K]; [now cbn in *|exact K].
  - destruct (H3 ltac:(discriminate)) as [|K]; [now cbn in *|exact K].
Qed.

Theorem C64_interpolation_needs_a_slice :
  forall (F : Type) (FO : FloatOps F) (ops : list (se_op (F := F))) im nz m rest,
  (forall op, In op ops -> exists pf, op = OpPsf pf) ->
  run_ops (ops ++ OpInterp im nz m :: rest) new_state = Raise AttributeError.
Proof.
  intros F FO ops im nz m rest H. revert H. generalize (eq_refl (st_slice (new_state (F := F)))).
  generalize (new_state (F := F)) at 1 3. cbn [st_slice new_state].
  induction ops as [|op ops IH]; intros st Hs H; cbn [app run_ops].
  - cbn [apply_op]. unfold set_interp. rewrite Hs. reflexivity.
  - destruct (H op (or_introl eq_refl)) as (pf & ->). cbn [apply_op bind].
    apply IH; [exact Hs|]. intros op' Ho. apply H. right. exact Ho.
Qed.

(** C64: setting interpolated images stores what was given, with a fraction
    that is one exactly at the masked pixels and an image that is zero elsewhere;
    the image before is kept. *)
Theorem C64_interpolated_images :
  forall (F : Type) (FO : FloatOps F) (im : img F) nz (m : img Z) (st st' : se_state) sl,
  st_slice st = Some sl -> set_interp im nz m st = Ok st' ->
  exists sl' it, st_slice st' = Some sl' /\ st_interp st' = Some it /\ st_psf st' = st_psf st /\
    sl_image sl' = im /\ sl_noises sl' = nz /\ it_pmask it = m /\ it_orig_image it = sl_image sl /\
    sl_bmask sl' = sl_bmask sl /\ sl_weight sl' = sl_weight sl /\
    sl_x_start sl' = sl_x_start sl /\ sl_y_start sl' = sl_y_start sl /\ sl_box_size sl' = sl_box_size sl /\
    nrows (it_interp_frac it) = nrows (sl_image sl) /\ ncols (it_interp_frac it) = ncols (sl_image sl) /\
    nrows (it_interp_only_image it) = nrows im /\ ncols (it_interp_only_image it) = ncols im /\
    forall r c,
      (px m r c <> 0 -> px (it_interp_frac it) r c = fone /\ px (it_interp_only_image it) r c = px im r c) /\
      (px m r c = 0 -> px (it_interp_frac it) r c = fzero /\ px (it_interp_only_image it) r c = fzero).
Proof.
  intros F FO im nz m st st' sl Es H. unfold set_interp in H. rewrite Es in H. apply Ok_inj in H as <-.
  eexists _, _. repeat (split; [reflexivity|]).
  intros r c. cbn [it_interp_frac it_interp_only_image where_set imap px].
  destruct (Z.eqb_spec (px m r c) 0) as [E|E]; cbn [negb]; split; intros K; try congruence; split; reflexivity.
Qed.

(** C64: reading a new slice does not reset the masks of the old one: the
    resampled pixel mask can be that of a slice that is no longer set. *)
Theorem C64_masks_are_of_the_current_slice_refuted :
  exists (ops : list (se_op (F := f64))) (st : se_state) (o : resample_out),
  run_ops ops new_state = Ok st /\
  resample ex_to_se ex_unit ex_unit st 0 1 2 0 0 3 = Ok o /\
  (exists sl, last ops (OpPsf ex_psf) = OpSlice sl /\ ravel (sl_bmask sl) = [0; 0; 0; 0]) /\
  ravel (ro_bmask o) = [0; 0; 0; 0] /\ ravel (ro_pmask o) = [1; 1; 1; 1].
Proof.
  set (sl := ex_slice (full 2 2 0)).
  set (ops := [OpSlice (ex_slice (full 2 2 1)); OpPsf ex_psf;
               OpInterp (full 2 2 (f64_ofZ 1)) [] (full 2 2 1); OpSlice sl]).
  set (r := bind (run_ops ops new_state) (fun st => bind (resample ex_to_se ex_unit ex_unit st 0 1 2 0 0 3) (fun o => Ok (st, o)))).
  assert (H : match r with Ok (st, o) => ravel (ro_bmask o) = [0; 0; 0; 0] /\ ravel (ro_pmask o) = [1; 1; 1; 1]
              | Raise _ => False end) by (vm_compute; split; reflexivity).
  destruct (run_ops ops new_state) as [st|] eqn:E; [|destruct H].
  cbn [bind] in r. destruct (resample ex_to_se ex_unit ex_unit st 0 1 2 0 0 3) as [o|] eqn:E'; [|destruct H].
  exists ops, st, o. split; [exact E|]. split; [exact E'|]. split; [|exact H].
  exists sl. split; reflexivity.
Qed.

(** Concrete: a complete history, and one without a PSF. *)
Example C64_example :
  let ops := [OpSlice (ex_slice (full 2 2 1)); OpPsf ex_psf; OpInterp (full 2 2 (f64_ofZ 1)) [full 2 2 (f64_ofZ 1)] (full 2 2 1)] in
  (exists st o, run_ops ops new_state = Ok st /\ resample ex_to_se ex_unit ex_unit st 0 1 2 0 0 3 = Ok o /\
     length (ro_noises o) = 1%nat) /\
  exists st, run_ops [OpSlice (ex_slice (full 2 2 1))] new_state = Ok st /\ st_psf st = None.
Proof.
  cbv zeta. split.
  - set (ops := [_; _; _]).
    set (r := bind (run_ops ops new_state) (fun st => bind (resample ex_to_se ex_unit ex_unit st 0 1 2 0 0 3) (fun o => Ok (st, o)))).
    assert (H : match r with Ok (st, o) => length (ro_noises o) = 1%nat | Raise _ => False end)
      by (vm_compute; reflexivity).
    destruct (run_ops ops new_state) as [st|] eqn:E; [|destruct H].
    cbn [bind] in r. destruct (resample ex_to_se ex_unit ex_unit st 0 1 2 0 0 3) as [o|] eqn:E'; [|destruct H].
    exists st, o. split; [reflexivity|]. split; [exact E'|exact H].
  - eexists. split; reflexivity.
Qed.

Print Assumptions C41_masks_of_the_nearest_pixel.
Print Assumptions C42_nearest_coadd_pixel.
Print Assumptions C41_masks_of_the_nearest_pixel_double.
Print Assumptions C42_nearest_coadd_pixel_double.
Print Assumptions C63_same_kernel_for_all_images.
Print Assumptions C64_setters_are_required.
