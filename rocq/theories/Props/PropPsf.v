(** C53, C54: PSF stamps. *)
From Coq Require Import ZArith List Bool Reals Lia Lra.
From Flocq Require Import Core.Raux Core.Zaux.
From Verif Require Import Lib.Base Lib.Floats Model.Lanczos Model.SeImage Model.PsfImage Model.Resample
  Spec.FloatSpec Spec.LanczosSpec Spec.SeImageSpec Spec.CoaddSpec Spec.ResampleSpec Spec.PsfSpec Proofs.BaseFacts
  Proofs.SliceInputsProofs Proofs.LanczosProofs Proofs.ResampleProofs Proofs.PsfProofs
  Proofs.SliceBoundsF64 Proofs.PsfF64 Proofs.StampF64 Props.PropLanczos.
Import ListNotations.
Open Scope Z_scope.

(** C53: the bounds of an SE stamp centre it on the pixel nearest to the
    position; they are the only ones that do; even sizes are refused. *)
Theorem C53_stamps_are_centred :
  forall (x y : R) (dim xmin ymin : Z),
  compute_psf_stamp_bounds x y dim = Ok (xmin, ymin) <->
  centred_on x xmin dim /\ centred_on y ymin dim.
Proof.
  intros x y dim xmin ymin. rewrite stamp_bounds_R. unfold centred_on.
  destruct (Z.eqb_spec (dim mod 2) 1) as [E|E]; split.
  - intros H. apply Ok_inj in H. apply pair_equal_spec in H as [<- <-].
    split; (split; [exact E|]).
    + replace (Zfloor (x + 1 / 2) - (dim - 1) / 2 + (dim - 1) / 2) with (Zfloor (x + 1 / 2)) by lia.
      apply nearest_floor_half.
    + replace (Zfloor (y + 1 / 2) - (dim - 1) / 2 + (dim - 1) / 2) with (Zfloor (y + 1 / 2)) by lia.
      apply nearest_floor_half.
  - intros [[_ Hx] [_ Hy]]. rewrite (nearest_eq _ _ Hx), (nearest_eq _ _ Hy).
    f_equal. f_equal; lia.
  - discriminate.
  - intros [[H _] _]. contradiction.
Qed.

Theorem C53_even_stamps_are_refused :
  forall (x y : R) (dim : Z), dim mod 2 = 0 -> compute_psf_stamp_bounds x y dim = Raise AssertionError.
Proof.
  intros x y dim H. rewrite stamp_bounds_R. destruct (Z.eqb_spec (dim mod 2) 1); [lia|reflexivity].
Qed.

(** C53: the coadd PSF is asked for at the pixel nearest to the slice centre and
    its stamp is centred on that pixel (in the convention without offset). *)
Theorem C53_coadd_layout :
  forall (col row : R) (box_size position_offset kcol krow : Z) (start_row start_col : R),
  build_coadd_psf_layout col row box_size position_offset = Ok ((kcol, krow), (start_row, start_col)) <->
  nearest col kcol /\ nearest row krow /\ box_size mod 2 = 1 /\
  (start_row = IZR (krow - position_offset - (box_size - 1) / 2) /\
   start_col = IZR (kcol - position_offset - (box_size - 1) / 2)).
Proof.
  intros col row box off kcol krow sr sc. rewrite layout_R.
  destruct (Z.eqb_spec (box mod 2) 1) as [E|E]; split.
  - intros H. apply Ok_inj in H. apply pair_equal_spec in H as [H1 H2].
    apply pair_equal_spec in H1 as [<- <-]. apply pair_equal_spec in H2 as [<- <-].
    split; [apply nearest_floor_half|]. split; [apply nearest_floor_half|]. auto.
  - intros (Hc & Hr & _ & -> & ->). now rewrite (nearest_eq _ _ Hc), (nearest_eq _ _ Hr).
  - discriminate.
  - intros (_ & _ & H & _). contradiction.
Qed.

Theorem C53_coadd_even_sizes_are_refused :
  forall (col row : R) (box_size position_offset : Z), box_size mod 2 = 0 ->
  build_coadd_psf_layout col row box_size position_offset = Raise AssertionError.
Proof.
  intros col row box off H. rewrite layout_R. destruct (Z.eqb_spec (box mod 2) 1); [lia|reflexivity].
Qed.

(** Hence the centre of the coadd stamp is within half a pixel of the slice
    centre, in each direction. *)
Theorem C53_coadd_centre_within_half_a_pixel :
  forall (col row : R) (box_size position_offset : Z) k (start_row start_col : R),
  build_coadd_psf_layout col row box_size position_offset = Ok (k, (start_row, start_col)) ->
  let cen := (IZR (box_size - 1) / 2)%R in
  (Rabs (start_row + cen + IZR position_offset - row) <= / 2 /\
   Rabs (start_col + cen + IZR position_offset - col) <= / 2)%R.
Proof.
  intros col row box off [kc kr] sr sc H cen.
  apply C53_coadd_layout in H as ([N1 N2] & [N3 N4] & Ho & -> & ->).
  unfold cen. rewrite (half_odd box Ho). rewrite !minus_IZR.
  split; apply Rabs_le; lra.
Qed.

(** C53, double arithmetic: for positions, sizes and offsets up to 2^30 the stamps
    are centred on a pixel within half a pixel and 2^-20 of the position, and
    exactly the even sizes are refused. *)
Theorem C53_stamps_are_centred_double :
  forall (x y : f64) (vx vy : R) (dim : Z),
  f64_is x vx -> f64_is y vy -> (Rabs vx <= bpow radix2 30)%R -> (Rabs vy <= bpow radix2 30)%R ->
  0 < dim <= 2 ^ 30 ->
  exists kx ky,
    (Rabs (vx - IZR kx) <= / 2 + bpow radix2 (-20))%R /\
    (Rabs (vy - IZR ky) <= / 2 + bpow radix2 (-20))%R /\
    compute_psf_stamp_bounds x y dim =
    if dim mod 2 =? 1 then Ok (kx - (dim - 1) / 2, ky - (dim - 1) / 2) else Raise AssertionError.
Proof. exact stamp_bounds_f64. Qed.

Theorem C53_coadd_layout_double :
  forall (col row : f64) (vcol vrow : R) (box_size position_offset : Z),
  f64_is col vcol -> f64_is row vrow ->
  (Rabs vcol <= bpow radix2 30)%R -> (Rabs vrow <= bpow radix2 30)%R ->
  0 < box_size <= 2 ^ 30 -> Z.abs position_offset <= 2 ^ 30 ->
  exists kcol krow,
    (Rabs (vcol - IZR kcol) <= / 2 + bpow radix2 (-20))%R /\
    (Rabs (vrow - IZR krow) <= / 2 + bpow radix2 (-20))%R /\
    if box_size mod 2 =? 1 then
      exists start_row start_col,
        build_coadd_psf_layout col row box_size position_offset
          = Ok ((kcol, krow), (start_row, start_col)) /\
        f64_is start_row (IZR (krow - position_offset - (box_size - 1) / 2)) /\
        f64_is start_col (IZR (kcol - position_offset - (box_size - 1) / 2))
    else build_coadd_psf_layout col row box_size position_offset = Raise AssertionError.
Proof. exact coadd_layout_f64. Qed.

(** In double arithmetic adding one half can round up: the double just below
    one half is taken to be nearest to pixel 1. *)
Theorem C53_just_below_half_refuted :
  exists x : f64, fltb x fhalf = true /\
  compute_psf_stamp_bounds x x 1 = Ok (1, 1).
Proof.
  exists (fsub fhalf (fdec 1 (2 ^ 54))). vm_compute. repeat split.
Qed.

(** Concrete. *)
Example C53_example :
  compute_psf_stamp_bounds (fdec 1007 10 : f64) (fdec 2503 10) 25 = Ok (89, 238) /\
  build_coadd_psf_layout (fdec 1007 10 : f64) (fdec 2503 10) 25 1 =
    Ok ((101, 250), (f64_ofZ 237, f64_ofZ 88)) /\
  compute_psf_stamp_bounds (fdec 1007 10 : f64) (fdec 2503 10) 24 = Raise AssertionError.
Proof. vm_compute. repeat split. Qed.

(** C54: a PSF image is the model drawn at the right position and subpixel
    offset, divided by its sum; it is square with an odd number of pixels and
    adds up to one if the drawn image does not add up to zero. *)
Theorem C54_psf_images :
  forall (draw : draw_request (F := R) -> result (img R)) (kind : psf_kind) (galsim_n off : Z) (x y : R) a,
  get_psf_image draw kind galsim_n off x y = Ok a ->
  exists q raw, right_request kind galsim_n off x y q /\ draw q = Ok raw /\ normalised_of raw a /\
    nrows a = ncols a /\ nrows a mod 2 = 1 /\
    (total (ravel raw) <> 0%R -> total (ravel a) = 1%R).
Proof.
  intros draw kind gn off x y a H.
  assert (Hk : kind <> UnknownPsf) by (intros ->; discriminate).
  rewrite (get_psf_image_R draw kind gn off x y Hk) in H.
  apply bind_ok in H as (raw & Hd & H).
  destruct (Z.eqb_spec (nrows raw) (ncols raw)) as [E1|]; [|discriminate].
  destruct (Z.eqb_spec (nrows raw mod 2) 1) as [E2|]; [|discriminate].
  cbn [negb] in H. apply Ok_inj in H as <-.
  exists (the_request kind gn off x y), raw. split; [now apply the_request_right|]. split; [exact Hd|].
  destruct (normalise_R raw) as [N1 N2]. split; [exact N1|]. split; [exact E1|]. split; [exact E2|exact N2].
Qed.

(** ... it fails only if drawing fails, the stamp is not square and odd, or the
    model is of an unknown type. *)
Theorem C54_psf_images_exist :
  forall (draw : draw_request (F := R) -> result (img R)) (kind : psf_kind) (galsim_n off : Z) (x y : R),
  kind <> UnknownPsf ->
  (forall q, right_request kind galsim_n off x y q ->
     exists raw, draw q = Ok raw /\ nrows raw = ncols raw /\ nrows raw mod 2 = 1) ->
  exists a, get_psf_image draw kind galsim_n off x y = Ok a.
Proof.
  intros draw kind gn off x y Hk Hd. rewrite (get_psf_image_R draw kind gn off x y Hk).
  destruct (Hd _ (the_request_right kind gn off x y Hk)) as (raw & E & E1 & E2).
  rewrite E. cbn [bind]. rewrite E1, Z.eqb_refl, <- E1, E2. cbn. eauto.
Qed.

Theorem C54_bad_stamps_are_refused :
  forall (F : Type) (FO : FloatOps F) (draw : draw_request (F := F) -> result (img F)) (kind : psf_kind)
    (galsim_n off : Z) (x y : F) a,
  get_psf_image draw kind galsim_n off x y = Ok a ->
  kind <> UnknownPsf /\ nrows a = ncols a /\ nrows a mod 2 = 1.
Proof.
  intros F FO draw kind gn off x y a H. unfold get_psf_image in H.
  destruct (ffloor (fadd x fhalf)); [|discriminate]. destruct (ffloor (fadd y fhalf)); [|discriminate].
  apply bind_ok in H as (raw & Hd & H).
  destruct (Z.eqb_spec (nrows (normalise raw)) (ncols (normalise raw))) as [E1|]; [|discriminate].
  destruct (Z.eqb_spec (nrows (normalise raw) mod 2) 1) as [E2|]; [|discriminate].
  cbn [negb] in H. apply Ok_inj in H as <-. split; [|split; assumption].
  intros ->. discriminate.
Qed.

(** C54: what [set_psf] stores: the PSF image with a stamp centred on the pixel
    nearest to the position. *)
Theorem C54_stored_psf :
  forall (draw : draw_request (F := R) -> result (img R)) (kind : psf_kind) (galsim_n off : Z) (x y : R) pf,
  set_psf draw kind galsim_n off x y = Ok pf <->
  exists a, get_psf_image draw kind galsim_n off x y = Ok a /\ pf_psf pf = a /\ pf_box_size pf = nrows a /\
    centred_on x (pf_x_start pf) (nrows a) /\ centred_on y (pf_y_start pf) (nrows a).
Proof.
  intros draw kind gn off x y pf. unfold set_psf. split.
  - intros H. apply bind_ok in H as (a & Ha & H). apply bind_ok in H as ([xm ym] & Hb & H).
    apply Ok_inj in H as <-. apply C53_stamps_are_centred in Hb as [B1 B2].
    exists a. cbn [pf_psf pf_box_size pf_x_start pf_y_start]. auto 10.
  - intros (a & Ha & E1 & E2 & B1 & B2). rewrite Ha. cbn [bind].
    rewrite (proj2 (C53_stamps_are_centred x y (nrows a) _ _) (conj B1 B2)). cbn [bind].
    destruct pf. cbn in *. now subst.
Qed.

(** C54: the resampled PSF is the kernel sum of surface brightness at the mapped
    (and shifted) positions, zero where the kernel has no support, times the
    coadd pixel area, all divided by the sum. *)
Theorem C54_resampled_psf :
  forall (to_se : Z -> Z -> R * R) (area_se area_coadd : Z -> Z -> R) (st : se_state) (pf : psf_data)
    (px0 py0 n : Z) (dx dy : R) (a : img R),
  st_psf st = Some pf ->
  resample_psf to_se area_se area_coadd st px0 py0 n dx dy = Ok a ->
  exists raw, normalised_of raw a /\ nrows a = n /\ ncols a = n /\
    (total (ravel raw) <> 0%R -> total (ravel a) = 1%R) /\
    forall r c, 0 <= r < n -> 0 <= c < n ->
      let row := (fst (position to_se py0 px0 (pf_y_start pf) (pf_x_start pf) r c) + dy)%R in
      let col := (snd (position to_se py0 px0 (pf_y_start pf) (pf_x_start pf) r c) + dx)%R in
      exists s, px raw r c = (s * area_coadd (c + px0)%Z (r + py0)%Z)%R /\
        window_sum (pf_box_size pf) (pf_box_size pf) 3 row col
          (fun i j => px (pf_psf pf) i j / area_se (j + pf_x_start pf)%Z (i + pf_y_start pf)%Z *
                      (lanczos_kernel 3 (col - IZR j) * lanczos_kernel 3 (row - IZR i)))%R s.
Proof.
  intros to_se area_se area_coadd st pf px0 py0 n dx dy a Ep H.
  destruct (resample_psf_spec to_se area_se area_coadd st px0 py0 n dx dy a H)
    as (pf' & raw & Ep' & S1 & S2 & -> & R1 & R2 & P).
  rewrite Ep in Ep'. injection Ep' as <-.
  exists raw. destruct (normalise_R raw) as [N1 N2]. split; [exact N1|]. split; [exact R1|]. split; [exact R2|].
  split; [exact N2|]. intros r c Hr Hc row col.
  destruct (P r c Hr Hc) as (v & e & E & V).
  exists (if e then 0 else v)%R. split; [rewrite V; destruct e; reflexivity|].
  assert (Hv : (if e then 0 else v)%R = v).
  { destruct e; [|reflexivity]. symmetry.
    destruct (Z_lt_le_dec (pf_box_size pf) 1) as [Hb|Hb].
    - rewrite point_sum in E. cbn [ffloor ROps] in E. injection E as E _.
      rewrite <- E. clear E.
      match goal with |- fold_left _ ?l _ = _ => assert (Hl : l = []) end.
      { destruct (window_pix _ _ _ _ _) as [|[i j] l] eqn:W; [reflexivity|].
        assert (Hin : In (i, j) ((i, j) :: l)) by (left; reflexivity). rewrite <- W in Hin.
        apply In_window_pix in Hin. cbn [brightness nrows ncols] in Hin. lia. }
      rewrite Hl. reflexivity.
    - refine (oob_zero _ _ (brightness area_se (pf_psf pf) (pf_y_start pf) (pf_x_start pf)) 3 _ _ v _ _ _ E);
        cbn [brightness nrows ncols]; lia. }
  rewrite Hv. apply point_value in E. cbn [brightness nrows ncols px] in E. rewrite S1, S2 in E. exact E.
Qed.

(** A PSF must have been set. *)
(** C54, double arithmetic: the request is right up to rounding, and the stamp is
    what was drawn divided by its sum up to rounding. *)
Theorem C54_psf_images_double :
  forall (draw : draw_request (F := f64) -> result (img f64)) (kind : psf_kind) (galsim_n off : Z)
    (x y : f64) (vx vy : R) a,
  f64_is x vx -> f64_is y vy -> (Rabs vx <= bpow radix2 30)%R -> (Rabs vy <= bpow radix2 30)%R ->
  Z.abs off <= 2 ^ 30 ->
  get_psf_image draw kind galsim_n off x y = Ok a ->
  exists q raw, right_request_double kind galsim_n off vx vy q /\ draw q = Ok raw /\ divided_by_sum raw a.
Proof. intros draw kind gn off x y vx vy a. apply psf_image_f64. Qed.

Theorem C54_resampled_psf_double :
  forall (to_se : Z -> Z -> f64 * f64) (area_se area_coadd : Z -> Z -> f64) (st : se_state)
    (px0 py0 n : Z) (dx dy : f64) (a : img f64),
  resample_psf to_se area_se area_coadd st px0 py0 n dx dy = Ok a ->
  exists raw, divided_by_sum raw a /\ nrows a = n /\ ncols a = n.
Proof.
  intros to_se area_se area_coadd st px0 py0 n dx dy a H.
  destruct (resample_psf_spec to_se area_se area_coadd st px0 py0 n dx dy a H)
    as (pf & raw & _ & _ & _ & -> & R1 & R2 & _).
  exists raw. split; [apply normalise_f64|]. split; assumption.
Qed.

(** Concrete: a stamp with a negative pixel is an ordinary one. *)
Example C54_example_double : ordinary_stamp [1; 5; -1]%R.
Proof.
  assert (B : forall a b : Z, (a <= b)%Z -> (bpow radix2 a <= bpow radix2 b)%R) by (intros; now apply bpow_le).
  pose proof (B 3 300 ltac:(lia))%Z as B3. pose proof (B (-300) 0 ltac:(lia))%Z as B0.
  pose proof (B (-51) (-5) ltac:(lia))%Z as B5. pose proof (bpow_gt_0 radix2 (-51)) as P.
  replace (bpow radix2 3) with 8%R in B3 by (cbn; lra). change (bpow radix2 0) with 1%R in B0.
  replace (bpow radix2 (-5)) with (/ 32)%R in B5 by (cbn; lra).
  assert (T : total [1; 5; -1]%R = 5%R) by (cbn; lra).
  assert (A : total (map Rabs [1; 5; -1]%R) = 7%R).
  { cbn [map]. rewrite (Rabs_pos_eq 1), (Rabs_pos_eq 5), (Rabs_left (-1)) by lra. cbn. lra. }
  split; [|split; [cbn; lia|split]].
  - repeat (apply Forall_cons; [|]); [rewrite Rabs_pos_eq by lra; lra..| |apply Forall_nil].
    rewrite Rabs_left by lra. lra.
  - rewrite T, Rabs_pos_eq by lra. lra.
  - rewrite T, A, Rabs_pos_eq by lra. cbn [length INR]. lra.
Qed.

Theorem C54_needs_a_psf :
  forall (F : Type) (FO : FloatOps F) to_se area_se area_coadd (st : se_state (F := F)) px0 py0 n dx dy,
  st_psf st = None -> resample_psf to_se area_se area_coadd st px0 py0 n dx dy = Raise RuntimeError.
Proof. intros F FO to_se area_se area_coadd st px0 py0 n dx dy H. unfold resample_psf. now rewrite H. Qed.

(** Concrete, in double arithmetic: a drawn stamp with sum 8, and a resampled
    PSF one pixel of which is outside. *)
Example C54_example :
  (match set_psf (fun q => Ok (mkimg 3 3 (fun r c => if (r =? 1) && (c =? 1) then f64_ofZ 4 else fhalf)))
           Piff 0 1 (fdec 1007 10 : f64) (fdec 2503 10) with
   | Ok pf => px (pf_psf pf) 1 1 = fdec 1 2 /\ px (pf_psf pf) 0 1 = fdec 1 16 /\
              (pf_x_start pf, pf_y_start pf, pf_box_size pf) = (100, 249, 3)
   | Raise _ => False
   end) /\
  (match resample_psf (fun x y => (f64_ofZ x, f64_ofZ y)) (fun _ _ => f64_ofZ 1) (fun _ _ => f64_ofZ 1)
           (mkstate None (Some (mkpsf (full 1 1 (f64_ofZ 7)) 0 0 1)) None) (-4) (-4) 5 (f64_ofZ 0) (f64_ofZ 0) with
   | Ok a => px a 0 0 = f64_ofZ 0 /\ px a 4 4 = f64_ofZ 1
   | Raise _ => False
   end).
Proof. vm_compute. repeat split. Qed.

Print Assumptions C53_stamps_are_centred.
Print Assumptions C53_coadd_layout.
Print Assumptions C53_stamps_are_centred_double.
Print Assumptions C53_coadd_layout_double.
Print Assumptions C54_psf_images_double.
Print Assumptions C54_resampled_psf_double.
Print Assumptions C54_psf_images.
Print Assumptions C54_resampled_psf.
