(** C43-C47: slices of single epoch images and their caches. *)
From Coq Require Import ZArith List Bool Reals Lia Lra.
From Flocq Require Import Core.Raux Core.Zaux.
From Verif Require Import Model.TapeBumps Proofs.TapeProofs.
From Verif Require Import Lib.Base Lib.Floats Model.TapeBumps Model.Cache Model.Noise Model.SeImage
  Spec.FloatSpec Spec.SeImageSpec Proofs.BaseFacts Proofs.SliceInputsProofs Proofs.SeImageProofs
  Proofs.SliceBoundsF64 Proofs.ScaleF64.
Import ListNotations.
Open Scope Z_scope.

(** C43: the bounds are square, have the parity of the box size, contain the
    asked number of pixels, and are centred on the position to half a pixel. *)
Theorem C43_slice_bounds :
  forall (frac_buffer : R) (box_size : Z) (col row : R),
  exists b n, compute_slice_bounds frac_buffer box_size col row = Ok b /\ square_of b n /\
    n mod 2 = box_size mod 2 /\
    (n = Ztrunc (frac_buffer * IZR box_size) \/ n = Ztrunc (frac_buffer * IZR box_size) + 1) /\
    (- / 2 <= row - (IZR (zrowmin b) + IZR (zrowmax b)) / 2 < / 2)%R /\
    (- / 2 <= col - (IZR (zcolmin b) + IZR (zcolmax b)) / 2 < / 2)%R.
Proof. exact slice_bounds_R. Qed.

(** ... and they are the only bounds like that. *)
Theorem C43_slice_bounds_unique :
  forall (frac_buffer : R) (box_size : Z) (col row : R) b n,
  square_of b n -> n mod 2 = box_size mod 2 ->
  (n = Ztrunc (frac_buffer * IZR box_size) \/ n = Ztrunc (frac_buffer * IZR box_size) + 1) ->
  (- / 2 <= row - (IZR (zrowmin b) + IZR (zrowmax b)) / 2 < / 2)%R ->
  (- / 2 <= col - (IZR (zcolmin b) + IZR (zcolmax b)) / 2 < / 2)%R ->
  compute_slice_bounds frac_buffer box_size col row = Ok b.
Proof.
  intros fb box col row b n H1 H2 H3 H4 H5.
  destruct (slice_bounds_R fb box col row) as (b' & n' & E & K1 & K2 & K3 & K4 & K5).
  rewrite E. f_equal.
  apply (slice_bounds_unique (Ztrunc (fb * IZR box)) box col row b' n' b n); assumption.
Qed.

(** A buffer fraction of at least one never shrinks the box. *)
Theorem C43_not_smaller_than_the_box :
  forall (frac_buffer : R) (box_size : Z) (col row : R) b,
  (1 <= frac_buffer)%R -> 1 <= box_size ->
  compute_slice_bounds frac_buffer box_size col row = Ok b ->
  box_size <= zrowmax b - zrowmin b + 1 /\ box_size <= zcolmax b - zcolmin b + 1.
Proof.
  intros fb box col row b Hf Hb H.
  destruct (slice_bounds_R fb box col row) as (b' & n & E & [K1 K1'] & K2 & K3 & _).
  rewrite E in H. apply Ok_inj in H as <-. rewrite K1, K1'.
  assert (T : box <= Ztrunc (fb * IZR box)).
  { assert (Hp : (1 <= IZR box)%R) by (apply (IZR_le 1); assumption).
    rewrite Ztrunc_floor by nra. apply Zfloor_lub. nra. }
  lia.
Qed.

(** C43, double arithmetic: the same, up to 2^-20 of a pixel, as long as the
    numbers stay below 2^30. *)
Theorem C43_slice_bounds_double :
  forall (frac_buffer col row : f64) (vf vcol vrow : R) (box_size : Z),
  f64_is frac_buffer vf -> f64_is col vcol -> f64_is row vrow ->
  (Rabs (vf * IZR box_size) <= bpow radix2 30)%R -> Z.abs box_size <= 2 ^ 30 ->
  (Rabs vcol <= bpow radix2 30)%R -> (Rabs vrow <= bpow radix2 30)%R ->
  exists b n, compute_slice_bounds frac_buffer box_size col row = Ok b /\ square_of b n /\
    n mod 2 = box_size mod 2 /\
    (n = Ztrunc (rnd64 (vf * IZR box_size)) \/ n = Ztrunc (rnd64 (vf * IZR box_size)) + 1) /\
    (Rabs (vrow - (IZR (zrowmin b) + IZR (zrowmax b)) / 2) <= / 2 + bpow radix2 (-20))%R /\
    (Rabs (vcol - (IZR (zcolmin b) + IZR (zcolmax b)) / 2) <= / 2 + bpow radix2 (-20))%R.
Proof.
  intros frac col row vf vc vr box H1 H2 H3 H4 H5 H6 H7.
  destruct (slice_bounds_f64 frac col row vf vc vr box H1 H2 H3 H4 H5 H6 H7)
    as (b & n & K1 & K2 & K3 & K4 & K5 & K6).
  unfold slack in K5, K6. exists b, n. repeat (split; [assumption|]).
  split; apply Rabs_le; lra.
Qed.

Theorem C43_not_smaller_than_the_box_double :
  forall (frac_buffer col row : f64) (vf vcol vrow : R) (box_size : Z) b,
  f64_is frac_buffer vf -> f64_is col vcol -> f64_is row vrow ->
  (Rabs (vf * IZR box_size) <= bpow radix2 30)%R -> 1 <= box_size ->
  (Rabs vcol <= bpow radix2 30)%R -> (Rabs vrow <= bpow radix2 30)%R -> (1 <= vf)%R ->
  compute_slice_bounds frac_buffer box_size col row = Ok b ->
  box_size <= zrowmax b - zrowmin b + 1 /\ box_size <= zcolmax b - zcolmin b + 1.
Proof. exact slice_bounds_f64_large. Qed.

(** Concrete, in double arithmetic: a 5 pixel box, buffer 1.5, at (10.3, 7.5). *)
Example C43_example :
  compute_slice_bounds (fdec 3 2 : f64) 5 (fdec 103 10) (fdec 75 10) = Ok (mkzb 5 11 7 13).
Proof. vm_compute. reflexivity. Qed.

(** C44: the containment test accepts exactly the bounds all of whose pixels
    are at least [buffer] pixels inside of the CCD. *)
Theorem C44_accepted_bounds_are_inside :
  forall (im_shape : Z * Z) (b : zbounds) (buffer : Z),
  zrowmin b <= zrowmax b -> zcolmin b <= zcolmax b ->
  (ccd_contains_bounds im_shape b buffer = true <->
   forall r c, in_zbounds b r c ->
     Z.max 0 buffer <= r < fst im_shape - Z.max 0 buffer /\
     Z.max 0 buffer <= c < snd im_shape - Z.max 0 buffer).
Proof. exact contains_spec. Qed.

(** C44: an accepted slice is read completely: every pixel of the image, weight
    map, bit mask and noise images is the one of the CCD at the same place. *)
Theorem C44_accepted_slices_are_read_completely :
  forall (F : Type) (FO : FloatOps F) (pow10 : F -> F) (normal : Z -> Z -> F) (store : F -> F)
    (s : source (F := F)) (mask_tape_bumps : bool) (noise_seeds : list Z) (bmask : img Z)
    (b : zbounds) (im_shape : Z * Z) (buffer n : Z) sl bm,
  let scale := zp_scale pow10 (so_magzp s) in
  shaped (so_image s) im_shape -> shaped (so_bkg s) im_shape -> shaped (so_weight s) im_shape ->
  shaped bmask im_shape ->
  1 <= n -> square_of b n -> ccd_contains_bounds im_shape b buffer = true ->
  set_slice pow10 normal store s mask_tape_bumps noise_seeds bmask b = Ok (sl, bm) ->
  sl_x_start sl = zcolmin b /\ sl_y_start sl = zrowmin b /\ sl_box_size sl = n /\
  window_of (fun r c => fmul (fsub (px (so_image s) r c) (px (so_bkg s) r c)) scale)
    (zrowmin b) (zcolmin b) n (sl_image sl) /\
  window_of (fun r c => fdiv (px (so_weight s) r c) (fmul scale scale))
    (zrowmin b) (zcolmin b) n (sl_weight sl) /\
  window_of (px bm) (zrowmin b) (zcolmin b) n (sl_bmask sl) /\
  (if mask_tape_bumps then set_tape_bump_mask (so_ccdnum s) bmask = Ok bm else bm = bmask) /\
  Forall2 (fun seed nz => exists nse,
     get_noise_image normal store (so_weight s) scale seed = Ok nse /\
     window_of (px nse) (zrowmin b) (zcolmin b) n nz) noise_seeds (sl_noises sl).
Proof.
  intros F FO pow10 normal store s tape seeds bmask b shape buffer n sl bm scale H1 H2 H3 H4 H5 H6 H7 H.
  exact (proj1 (set_slice_spec pow10 normal store s tape seeds bmask b shape buffer n
                  H1 H2 H3 H4 H5 H6 H7) sl bm H).
Qed.

(** C44: and it can be read, if the CCD is in the tape bump table (when that is
    used) and some weight is positive (when noise is asked for). *)
Theorem C44_accepted_slices_can_be_read :
  forall (F : Type) (FO : FloatOps F) (pow10 : F -> F) (normal : Z -> Z -> F) (store : F -> F)
    (s : source (F := F)) (mask_tape_bumps : bool) (noise_seeds : list Z) (bmask : img Z)
    (b : zbounds) (im_shape : Z * Z) (buffer n : Z),
  shaped (so_image s) im_shape -> shaped (so_bkg s) im_shape -> shaped (so_weight s) im_shape ->
  shaped bmask im_shape ->
  1 <= n -> square_of b n -> ccd_contains_bounds im_shape b buffer = true ->
  (mask_tape_bumps = true -> 1 <= so_ccdnum s <= 62) ->
  (noise_seeds = [] \/ exists r c, inb (so_weight s) r c /\ fleb (px (so_weight s) r c) fzero = false) ->
  exists sl bm, set_slice pow10 normal store s mask_tape_bumps noise_seeds bmask b = Ok (sl, bm).
Proof.
  intros F FO pow10 normal store s tape seeds bmask b shape buffer n H1 H2 H3 H4 H5 H6 H7.
  exact (proj2 (set_slice_spec pow10 normal store s tape seeds bmask b shape buffer n
                  H1 H2 H3 H4 H5 H6 H7)).
Qed.

(** Bounds that are not square are refused. *)
Theorem C44_slices_are_square :
  forall (F : Type) (FO : FloatOps F) (pow10 : F -> F) (normal : Z -> Z -> F) (store : F -> F)
    (s : source (F := F)) tape seeds bmask b,
  zcolmax b - zcolmin b <> zrowmax b - zrowmin b ->
  set_slice pow10 normal store s tape seeds bmask b = Raise AssertionError.
Proof.
  intros F FO pow10 normal store s tape seeds bmask b H. unfold set_slice.
  destruct (Z.eqb_spec (zcolmax b - zcolmin b + 1) (zrowmax b - zrowmin b + 1)); [lia|reflexivity].
Qed.

(** Without the test a slice that sticks out would silently lose pixels, or be
    read from the other side of the CCD. *)
Theorem C44_unchecked_bounds_lose_pixels :
  let w := full 4 4 (f64_ofZ 1) in
  let s := mksrc 1 (f64_ofZ 30) w w w in
  let bmask := mkimg 4 4 (fun r c => 10 * r + c) in
  let read b := match set_slice (fun x => x) (fun _ _ => f64_ofZ 0) (fun x => x) s false [] bmask b with
                | Ok (sl, _) => Some (nrows (sl_bmask sl), ncols (sl_bmask sl), px (sl_bmask sl) 0 0)
                | Raise _ => None
                end in
  read (mkzb 2 4 2 4) = Some (2, 2, 22) /\ ccd_contains_bounds (4, 4) (mkzb 2 4 2 4) 0 = false /\
  read (mkzb (-3) (-2) (-3) (-2)) = Some (2, 2, 11) /\
  ccd_contains_bounds (4, 4) (mkzb (-3) (-2) (-3) (-2)) 0 = false.
Proof. vm_compute. repeat split. Qed.

(** Concrete: hypotheses are met by a 4 x 4 CCD and a 2 x 2 slice. *)
Example C44_example :
  let w := mkimg 4 4 (fun r c => f64_ofZ (r + c)) in
  let s := mksrc 62 (f64_ofZ 30) w w w in
  let bmask := mkimg 4 4 (fun r c => 10 * r + c) in
  let b := mkzb 1 2 1 2 in
  shaped w (4, 4) /\ square_of b 2 /\ ccd_contains_bounds (4, 4) b 1 = true /\
  exists sl bm,
    set_slice (fun x => x) (fun _ i => f64_ofZ i) (fun x => x) s true [3; 4] bmask b = Ok (sl, bm) /\
    px (sl_bmask sl) 0 1 = 16384 + 12 /\ length (sl_noises sl) = 2%nat.
Proof.
  cbv zeta. split; [split; reflexivity|]. split; [split; reflexivity|]. split; [reflexivity|].
  set (r := set_slice _ _ _ _ _ _ _ _).
  assert (H : match r with Ok (sl, bm) => px (sl_bmask sl) 0 1 = 16384 + 12 /\ length (sl_noises sl) = 2%nat
              | Raise _ => False end) by (vm_compute; split; reflexivity).
  destruct r as [[sl bm]|]; [|destruct H]. exists sl, bm. split; [reflexivity|exact H].
Qed.

(** C45: the zero point scale is positive for every zero point, ... *)
Definition ten_to (x : R) : R := Rpower 10 x.

Theorem C45_scale_is_positive : forall magzp : R, (0 < zp_scale ten_to magzp)%R.
Proof. intros m. unfold zp_scale, ten_to, Rpower. apply exp_pos. Qed.

(** ... it keeps the signal to noise of every pixel and the sign of every weight. *)
Theorem C45_signal_to_noise_is_kept :
  forall (normal : Z -> Z -> R) (store : R -> R)
    (s : source (F := R)) (mask_tape_bumps : bool) (noise_seeds : list Z) (bmask : img Z)
    (b : zbounds) (im_shape : Z * Z) (buffer n : Z) sl bm i j,
  shaped (so_image s) im_shape -> shaped (so_bkg s) im_shape -> shaped (so_weight s) im_shape ->
  shaped bmask im_shape ->
  1 <= n -> square_of b n -> ccd_contains_bounds im_shape b buffer = true ->
  set_slice ten_to normal store s mask_tape_bumps noise_seeds bmask b = Ok (sl, bm) ->
  0 <= i < n -> 0 <= j < n ->
  let signal := (px (so_image s) (zrowmin b + i) (zcolmin b + j) -
                 px (so_bkg s) (zrowmin b + i) (zcolmin b + j))%R in
  let wgt := px (so_weight s) (zrowmin b + i) (zcolmin b + j) in
  ((px (sl_image sl) i j) ^ 2 * px (sl_weight sl) i j = signal ^ 2 * wgt)%R /\
  ((0 < px (sl_weight sl) i j)%R <-> (0 < wgt)%R) /\
  ((px (sl_weight sl) i j < 0)%R <-> (wgt < 0)%R) /\
  ((0 < px (sl_image sl) i j)%R <-> (0 < signal)%R).
Proof.
  intros normal store s tape seeds bmask b shape buffer n sl bm i j H1 H2 H3 H4 H5 H6 H7 H Hi Hj.
  destruct (proj1 (set_slice_spec ten_to normal store s tape seeds bmask b shape buffer n
                  H1 H2 H3 H4 H5 H6 H7) sl bm H) as (_ & _ & _ & (_ & _ & W1) & (_ & _ & W2) & _).
  cbv zeta. rewrite (W1 i j Hi Hj), (W2 i j Hi Hj). clear W1 W2.
  pose proof (C45_scale_is_positive (so_magzp s)) as Hs.
  set (sc := zp_scale ten_to (so_magzp s)) in *. clearbody sc. cbn [fmul fsub fdiv ROps].
  set (sig := (px (so_image s) _ _ - _)%R). set (w := px (so_weight s) _ _). clearbody sig w.
  assert (Hq : (0 < sc * sc)%R) by nra. pose proof (Rinv_0_lt_compat _ Hq) as Hi'.
  assert (Hd : (w / (sc * sc) = w * / (sc * sc))%R) by reflexivity.
  split; [field; lra|]. split; [|split]; rewrite ?Hd; split; intros; nra.
Qed.

(** ... and puts images of any zero point on the common magnitude scale with
    zero point 30. *)
(** C45, double arithmetic: the product of the squared pixel and its weight is kept
    to six roundings, and no sign changes. *)
Theorem C45_signal_to_noise_is_kept_double :
  forall (pow10 : f64 -> f64) (normal : Z -> Z -> f64) (store : f64 -> f64)
    (s : source (F := f64)) (mask_tape_bumps : bool) (noise_seeds : list Z) (bmask : img Z)
    (b : zbounds) (im_shape : Z * Z) (buffer n : Z) sl bm i j (image bkg wgt scale : R),
  shaped (so_image s) im_shape -> shaped (so_bkg s) im_shape -> shaped (so_weight s) im_shape ->
  shaped bmask im_shape ->
  1 <= n -> square_of b n -> ccd_contains_bounds im_shape b buffer = true ->
  set_slice pow10 normal store s mask_tape_bumps noise_seeds bmask b = Ok (sl, bm) ->
  0 <= i < n -> 0 <= j < n ->
  f64_is (px (so_image s) (zrowmin b + i) (zcolmin b + j)) image ->
  f64_is (px (so_bkg s) (zrowmin b + i) (zcolmin b + j)) bkg ->
  f64_is (px (so_weight s) (zrowmin b + i) (zcolmin b + j)) wgt ->
  f64_is (pow10 (fmul (fdec 4 10) (fsub (fofZ 30) (so_magzp s)))) scale ->
  let signal := (image - bkg)%R in
  ordinary_pixel signal wgt scale ->
  exists p w, f64_is (px (sl_image sl) i j) p /\ f64_is (px (sl_weight sl) i j) w /\
    (Rabs (p ^ 2 * w - signal ^ 2 * wgt) <= 6 * bpow radix2 (-52) * Rabs (signal ^ 2 * wgt))%R /\
    ((0 < w)%R <-> (0 < wgt)%R) /\ ((w < 0)%R <-> (wgt < 0)%R) /\
    ((0 < p)%R <-> (0 < signal)%R) /\ ((p < 0)%R <-> (signal < 0)%R).
Proof.
  intros pow10 normal store s tape seeds bmask b shape buffer n sl bm i j im bk wg sc
    H1 H2 H3 H4 H5 H6 H7 H Hi Hj Vi Vb Vw Vs signal Ho.
  destruct (proj1 (set_slice_spec pow10 normal store s tape seeds bmask b shape buffer n
                  H1 H2 H3 H4 H5 H6 H7) sl bm H) as (_ & _ & _ & (_ & _ & W1) & (_ & _ & W2) & _).
  rewrite (W1 i j Hi Hj), (W2 i j Hi Hj).
  exact (signal_to_noise_double _ _ _ _ im bk wg sc Vi Vb Vw Vs Ho).
Qed.

(** Concrete: pixel 7 over a background of 2, weight 3, scale 1/2. *)
Example C45_example_double : ordinary_pixel (7 - 2) 3 (/ 2).
Proof.
  assert (B : forall a b c : Z, (a <= b <= c)%Z -> (bpow radix2 a <= bpow radix2 b <= bpow radix2 c)%R)
    by (intros; split; apply bpow_le; lia).
  pose proof (B (-300) 0 300 ltac:(lia))%Z as B0. pose proof (B (-300) 3 300 ltac:(lia))%Z as B3.
  pose proof (B (-100) (-1) 100 ltac:(lia))%Z as B1.
  replace (bpow radix2 0) with 1%R in B0 by reflexivity. replace (bpow radix2 3) with 8%R in B3 by (cbn; lra).
  replace (bpow radix2 (-1)) with (/ 2)%R in B1 by (cbn; lra).
  split; [|split]; [right; rewrite Rabs_pos_eq by lra; lra..|exact B1].
Qed.

Theorem C45_common_zero_point :
  forall (normal : Z -> Z -> R) (store : R -> R)
    (s : source (F := R)) (mask_tape_bumps : bool) (noise_seeds : list Z) (bmask : img Z)
    (b : zbounds) (im_shape : Z * Z) (buffer n : Z) sl bm i j (mag : R),
  shaped (so_image s) im_shape -> shaped (so_bkg s) im_shape -> shaped (so_weight s) im_shape ->
  shaped bmask im_shape ->
  1 <= n -> square_of b n -> ccd_contains_bounds im_shape b buffer = true ->
  set_slice ten_to normal store s mask_tape_bumps noise_seeds bmask b = Ok (sl, bm) ->
  0 <= i < n -> 0 <= j < n ->
  (px (so_image s) (zrowmin b + i) (zcolmin b + j) - px (so_bkg s) (zrowmin b + i) (zcolmin b + j)
   = ten_to (- (4 / 10) * (mag - so_magzp s)))%R ->
  (px (sl_image sl) i j = ten_to (- (4 / 10) * (mag - 30)))%R.
Proof.
  intros normal store s tape seeds bmask b shape buffer n sl bm i j mag H1 H2 H3 H4 H5 H6 H7 H Hi Hj Hm.
  destruct (proj1 (set_slice_spec ten_to normal store s tape seeds bmask b shape buffer n
                  H1 H2 H3 H4 H5 H6 H7) sl bm H) as (_ & _ & _ & (_ & _ & W1) & _).
  rewrite (W1 i j Hi Hj). cbn [fmul fsub ROps]. rewrite Hm.
  unfold zp_scale, ten_to, fdec. cbn [fmul fsub fdiv fofZ ROps].
  rewrite <- Rpower_plus. f_equal. field.
Qed.

(** C46: masking tape bumps works exactly for the CCDs 1 to 62; inside of the
    rectangles of the CCD it sets the bump bit and clears the suspect bit, and
    it changes nothing else. *)
Theorem C46_tape_bumps :
  forall (ccdnum : Z) (m : img Z),
  (1 <= ccdnum <= 62 -> exists m', set_tape_bump_mask ccdnum m = Ok m') /\
  (~ 1 <= ccdnum <= 62 -> set_tape_bump_mask ccdnum m = Raise KeyError) /\
  forall m', set_tape_bump_mask ccdnum m = Ok m' ->
    nrows m' = nrows m /\ ncols m' = ncols m /\
    forall r c, inb m r c ->
      (in_tape_bump ccdnum r c -> bumped (px m r c) (px m' r c)) /\
      (~ in_tape_bump ccdnum r c -> px m' r c = px m r c).
Proof.
  intros ccd m. destruct (tape_mask_spec ccd m) as (H1 & H2 & H3).
  split; [exact H1|]. split; [exact H2|]. intros m' E.
  destruct (H3 m' E) as (_ & S1 & S2 & P). split; [exact S1|]. split; [exact S2|].
  intros r c Hin. destruct (P r c Hin) as [P1 P2]. split; [|exact P2].
  intros Hb. rewrite (P1 Hb). apply bumpv_bumped.
Qed.

(** C46: the table. Every CCD has six bumps: at each of the two long sides of 4096 pixels
    one at either end and one in the middle. *)
Theorem C46_tape_bump_layout :
  forall ccd bumps, In (ccd, bumps) tape_bumps ->
  length bumps = 6%nat /\
  (forall b, In b bumps -> bflag b = 2 ^ TAPEBUMP_BIT) /\
  exists left_low left_mid left_high right_low right_mid right_high,
    (forall b, In b bumps <-> In b [left_low; left_mid; left_high; right_low; right_mid; right_high]) /\
    (forall b, In b [left_low; left_mid; left_high] -> col1 b = 1 /\ 100 < col2 b < 220) /\
    (forall b, In b [right_low; right_mid; right_high] -> 1840 < col1 b < 1940 /\ col2 b = 2048) /\
    (forall b, In b [left_low; right_low] -> row1 b = 1 /\ 80 < row2 b < 200) /\
    (forall b, In b [left_mid; right_mid] -> 1790 < row1 b /\ row1 b + 70 < row2 b < 2330) /\
    (forall b, In b [left_high; right_high] -> 3900 < row1 b < 4020 /\ row2 b = 4096).
Proof.
  intros ccd bumps H. pose proof (layout_of _ _ H) as L. unfold layout_ok in L. rewrite !andb_true_iff in L.
  destruct L as (((((((L0 & L1) & A1) & A2) & A3) & A4) & A5) & A6). rewrite forallb_forall in L1.
  split; [now apply Nat.eqb_eq|]. split.
  { intros b Hb. specialize (L1 b Hb). rewrite !andb_true_iff in L1. destruct L1 as [_ L1]. now apply Z.eqb_eq. }
  apply only_one in A1 as (b1 & I1 & P1 & U1). apply only_one in A2 as (b2 & I2 & P2 & U2).
  apply only_one in A3 as (b3 & I3 & P3 & U3). apply only_one in A4 as (b4 & I4 & P4 & U4).
  apply only_one in A5 as (b5 & I5 & P5 & U5). apply only_one in A6 as (b6 & I6 & P6 & U6).
  exists b1, b2, b3, b4, b5, b6. split.
  - intros b. split.
    + intros Hb. specialize (L1 b Hb). rewrite !andb_true_iff, !orb_true_iff in L1.
      destruct L1 as [[[X|X] [[Y|Y]|Y]] _].
      * left. symmetry. apply U1; [exact Hb|]. unfold both. now rewrite X, Y.
      * right; left. symmetry. apply U2; [exact Hb|]. unfold both. now rewrite X, Y.
      * right; right; left. symmetry. apply U3; [exact Hb|]. unfold both. now rewrite X, Y.
      * right; right; right; left. symmetry. apply U4; [exact Hb|]. unfold both. now rewrite X, Y.
      * right; right; right; right; left. symmetry. apply U5; [exact Hb|]. unfold both. now rewrite X, Y.
      * right; right; right; right; right; left. symmetry. apply U6; [exact Hb|]. unfold both. now rewrite X, Y.
    + cbn [In]. intuition (subst; assumption).
  - unfold both, at_left, at_right, at_bottom, at_top, at_middle in *.
    rewrite !andb_true_iff, !Z.eqb_eq, !Z.ltb_lt in *.
    repeat split; cbn [In] in *; intuition (subst; lia).
Qed.

(** C46: the rows and columns of the table are counted from 1 but used from 0. Row 0 and
    column 0 are never masked; the bumps at the corners start at row 1 or column 1, and reach
    the last row and the last column at the opposite ends. *)
Theorem C46_first_row_and_column_not_masked :
  forall ccd, 1 <= ccd <= 62 ->
  (forall r c, in_tape_bump ccd r c -> 1 <= r /\ 1 <= c) /\
  in_tape_bump ccd 1 1 /\ in_tape_bump ccd 1 2047 /\ in_tape_bump ccd 4095 1 /\ in_tape_bump ccd 4095 2047.
Proof.
  intros ccd Hc.
  assert (X : exists bumps, In (ccd, bumps) tape_bumps).
  { destruct (proj1 (C46_tape_bumps ccd (full 0 0 0)) Hc) as (m' & E).
    unfold set_tape_bump_mask in E. pose proof (lookup_ccd_spec tape_bumps ccd) as L.
    destruct (lookup_ccd tape_bumps ccd) as [bs|]; [|discriminate E]. exists bs. exact L. }
  destruct X as (bumps & Hb).
  assert (N : forall bs, In (ccd, bs) tape_bumps -> forall b, In b bs -> 1 <= row1 b /\ 1 <= col1 b).
  { intros bs Hbs b Hin. destruct (C46_tape_bump_layout _ _ Hbs) as (_ & _ & b1 & b2 & b3 & b4 & b5 & b6 & E & Q1 & Q2 & Q3 & Q4 & Q5).
    assert (Hcol : 1 <= col1 b).
    { assert (X : In b [b1; b2; b3] \/ In b [b4; b5; b6]) by (apply E in Hin; cbn [In] in *; tauto).
      destruct X as [X|X]; [apply Q1 in X|apply Q2 in X]; lia. }
    assert (Hrow : 1 <= row1 b).
    { assert (X : In b [b1; b4] \/ In b [b2; b5] \/ In b [b3; b6]) by (apply E in Hin; cbn [In] in *; tauto).
      destruct X as [X|[X|X]]; [apply Q3 in X|apply Q4 in X|apply Q5 in X]; lia. }
    split; assumption. }
  split.
  { intros r c (bs & b & I & J & Hr & Hcc). destruct (N _ I _ J). lia. }
  destruct (C46_tape_bump_layout _ _ Hb) as (_ & _ & b1 & b2 & b3 & b4 & b5 & b6 & E & Q1 & Q2 & Q3 & Q4 & Q5).
  assert (J1 : In b1 bumps) by (apply E; cbn; tauto). assert (J3 : In b3 bumps) by (apply E; cbn; tauto).
  assert (J4 : In b4 bumps) by (apply E; cbn; tauto). assert (J6 : In b6 bumps) by (apply E; cbn; tauto).
  pose proof (Q1 b1 ltac:(cbn; tauto)). pose proof (Q3 b1 ltac:(cbn; tauto)).
  pose proof (Q1 b3 ltac:(cbn; tauto)). pose proof (Q5 b3 ltac:(cbn; tauto)).
  pose proof (Q2 b4 ltac:(cbn; tauto)). pose proof (Q3 b4 ltac:(cbn; tauto)).
  pose proof (Q2 b6 ltac:(cbn; tauto)). pose proof (Q5 b6 ltac:(cbn; tauto)).
  repeat split; exists bumps; [exists b1|exists b4|exists b3|exists b6]; (split; [exact Hb|]); (split; [assumption|]); lia.
Qed.

(** C46: doing it any number of times is doing it once. *)
Theorem C46_idempotent :
  forall (ccdnum : Z) (m m1 m2 : img Z),
  set_tape_bump_mask ccdnum m = Ok m1 -> set_tape_bump_mask ccdnum m1 = Ok m2 -> img_eq m2 m1.
Proof.
  intros ccd m m1 m2 H1 H2.
  destruct (tape_again ccd m m1 m1 H1 (or_intror (img_eq_refl m1))) as (m2' & E & H).
  rewrite H2 in E. now apply Ok_inj in E as <-.
Qed.

(** C46: for every history of slices read through the mask cache, of any size,
    in which every mask file is always used with the same CCD number and the
    same choice about tape bumps, every read gives what a fresh read would. *)
Theorem C46_cached_reads_agree_with_fresh_reads :
  forall (F : Type) (FO : FloatOps F) (pow10 : F -> F) (normal : Z -> Z -> F) (store : F -> F)
    (maxsize : nat) (disk : Z -> img Z) (ccd_of : Z -> Z) (tape_of : Z -> bool)
    (qs : list (read_request (F := F))),
  (forall k, wf (disk k)) ->
  (forall q, In q qs -> rq_tape q = tape_of (rq_mask q) /\
     so_ccdnum (rq_source q) = ccd_of (rq_mask q) /\
     exists sl bm, read_fresh pow10 normal store disk q = Ok (sl, bm)) ->
  exists sls, run_reads pow10 normal store maxsize disk [] qs = Ok sls /\
    Forall2 (fun q sl => exists sl0 bm,
       read_fresh pow10 normal store disk q = Ok (sl0, bm) /\ same_slice sl sl0) qs sls.
Proof.
  intros F FO pow10 normal store maxsize disk ccd_of tape_of qs Hwf Hq.
  apply (run_reads_spec pow10 normal store maxsize disk ccd_of tape_of Hwf qs Hq). constructor.
Qed.

(** A history that uses one mask both with and without tape bumps does not: the
    reader that asked for none gets them. *)
Theorem C46_mixed_use_refuted :
  exists (disk : Z -> img Z) (q1 q2 : read_request (F := f64)) sl1 sl2 sl0 bm,
  rq_tape q2 = false /\
  run_reads (fun x => x) (fun _ _ => f64_ofZ 0) (fun x => x) 16 disk [] [q1; q2] = Ok [sl1; sl2] /\
  read_fresh (fun x => x) (fun _ _ => f64_ofZ 0) (fun x => x) disk q2 = Ok (sl0, bm) /\
  px (sl_bmask sl0) 0 0 = 0 /\ px (sl_bmask sl2) 0 0 = 16384.
Proof.
  set (w := full 4 4 (f64_ofZ 1)). set (s := mksrc 1 (f64_ofZ 30) w w w).
  set (d := fun _ : Z => full 4 4 0).
  set (q := fun t => mkreq s t [] 7 (mkzb 1 2 1 2)).
  exists d, (q true), (q false).
  set (r := run_reads _ _ _ _ _ _ _). set (g := read_fresh _ _ _ _ _).
  assert (Hr : match r with Ok [_; sl2] => px (sl_bmask sl2) 0 0 = 16384 | _ => False end)
    by (vm_compute; reflexivity).
  assert (Hg : match g with Ok (sl0, _) => px (sl_bmask sl0) 0 0 = 0 | _ => False end)
    by (vm_compute; reflexivity).
  destruct r as [[|sl1 [|sl2 [|]]]|]; try (destruct Hr; fail).
  destruct g as [[sl0 bm]|]; [|destruct Hg].
  exists sl1, sl2, sl0, bm. repeat split; assumption.
Qed.

(** The table uses FITS (1-based) pixel numbers but is applied with 0-based
    ones: the first row and column are never masked although every CCD has
    bumps that start there. *)
Theorem C46_first_row_and_column_are_missed :
  forall ccdnum : Z, 1 <= ccdnum <= 62 ->
  (forall r c, r = 0 \/ c = 0 -> ~ in_tape_bump ccdnum r c) /\
  (exists bumps b b', In (ccdnum, bumps) tape_bumps /\ In b bumps /\ In b' bumps /\
     row1 b = 1 /\ col1 b' = 1).
Proof.
  intros ccd Hc. split.
  - intros r c Hrc (bs & b & H1 & H2 & H3 & H4).
    pose proof (table_bump (ccd, bs) b H1 H2). lia.
  - assert (T : forallb (fun e => existsb (fun b => row1 b =? 1) (snd e) &&
                                  existsb (fun b => col1 b =? 1) (snd e)) tape_bumps = true)
      by (vm_compute; reflexivity).
    rewrite forallb_forall in T.
    assert (Hi : In ccd (map fst tape_bumps)) by (rewrite table_keys, In_zrange; lia).
    apply in_map_iff in Hi as ([k bs] & <- & Hi). specialize (T _ Hi).
    apply andb_true_iff in T as [T1 T2]. cbn [snd] in T1, T2.
    apply existsb_exists in T1 as (b & B1 & B2). apply existsb_exists in T2 as (b' & B1' & B2').
    apply Z.eqb_eq in B2, B2'. exists bs, b, b'. auto.
Qed.

(** Concrete: a pixel with the suspect bit in a bump of CCD 62 and one outside. *)
Example C46_example :
  match set_tape_bump_mask 62 (full 4096 2048 (2048 + 1)) with
  | Ok m' => px m' 1914 139 = 16384 + 1 /\ px m' 1914 140 = 2048 + 1 /\ px m' 0 0 = 2048 + 1
  | Raise _ => False
  end.
Proof. vm_compute. repeat split. Qed.

(** C47: for every history of calls and cache clears, every cache size and
    every function, the cached results are those of the function, provided
    that keys that compare equal mean the same. *)
Theorem C47_caching_is_transparent :
  forall (K V : Type) (eqb : K -> K -> bool) (f : K -> result V) (maxsize : nat)
    (ops : list cache_op),
  (forall k k', eqb k k' = true -> f k = f k') ->
  fst (run_cached eqb maxsize f ops []) = map f (calls ops).
Proof.
  intros K V eqb f n ops H. apply run_cached_spec; [exact H|constructor].
Qed.

(** ... and the cache never holds more entries than its size. *)
Theorem C47_cache_is_bounded :
  forall (K V : Type) (eqb : K -> K -> bool) (f : K -> result V) (maxsize : nat)
    (ops : list cache_op),
  (length (snd (run_cached eqb maxsize f ops [])) <= maxsize)%nat.
Proof. intros K V eqb f n ops. apply cache_bounded. cbn. lia. Qed.

(** The condition on keys is needed: single epoch images and WCS objects are
    compared by a hash of a text, and two objects with the same hash share one
    cache entry. *)
Theorem C47_hash_collision_refuted :
  forall (K V : Type) (hash : K -> Z) (f : K -> result V) (maxsize : nat) (k k' : K) v,
  (1 <= maxsize)%nat -> hash k = hash k' -> f k = Ok v -> f k' <> Ok v ->
  fst (run_cached (fun a b => hash a =? hash b) maxsize f [Call k; Call k'] []) <> map f [k; k'].
Proof.
  intros K V hash f n k k' v Hn Hh Hv Hv' E.
  cbn [run_cached cached_call find_key] in E. rewrite Hv in E. cbn [snd fst] in E.
  destruct n as [|n]; [lia|]. cbn [firstn] in E. rewrite firstn_nil in E.
  cbn [run_cached cached_call find_key] in E. unfold cached_call in E. cbn [find_key] in E.
  rewrite Hh, Z.eqb_refl in E. cbn [fst map] in E. rewrite Hv in E. congruence.
Qed.

(** Concrete: a cache of two entries, five calls. *)
Example C47_example :
  fst (run_cached Z.eqb 2 (fun k => if k =? 0 then Raise IOError else Ok (k * k))
         [Call 1; Call 2; Call 1; Clear; Call 0; Call 3; Call 1] [])
  = [Ok 1; Ok 4; Ok 1; Raise IOError; Ok 9; Ok 1].
Proof. vm_compute. reflexivity. Qed.

Print Assumptions C43_slice_bounds.
Print Assumptions C43_slice_bounds_double.
Print Assumptions C44_accepted_slices_are_read_completely.
Print Assumptions C45_signal_to_noise_is_kept.
Print Assumptions C46_cached_reads_agree_with_fresh_reads.
Print Assumptions C47_caching_is_transparent.
Print Assumptions C46_tape_bump_layout.
Print Assumptions C46_first_row_and_column_not_masked.
