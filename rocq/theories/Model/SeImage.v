(** Model of the slice handling of [SEImageSlice] (_se_image.py): slice bounds,
    the containment test, reading of a slice with its cached images, and the
    processing images. *)
From Coq Require Import ZArith List Bool.
From Verif Require Import Lib.Base Lib.Floats Model.TapeBumps Model.Cache Model.Noise.
Import ListNotations.
Open Scope Z_scope.

(** meds.bounds.Bounds (external) with integer limits, both inclusive. *)
Record zbounds := mkzb { zrowmin : Z; zrowmax : Z; zcolmin : Z; zcolmax : Z }.

(** meds.bounds.Bounds.contains_bounds (external): the argument lies inside. *)
Definition contains_bounds (outer inner : zbounds) : bool :=
  (zrowmin outer <=? zrowmin inner) && (zrowmax inner <=? zrowmax outer) &&
  (zcolmin outer <=? zcolmin inner) && (zcolmax inner <=? zcolmax outer).

(** The bounds of the CCD, 614. [im_shape] is (rows, columns). *)
Definition ccd_bounds (im_shape : Z * Z) : zbounds :=
  mkzb 0 (fst im_shape - 1) 0 (snd im_shape - 1).

(** ccd_contains_bounds, 1155-1183. *)
Definition ccd_contains_bounds (im_shape : Z * Z) (bounds : zbounds) (buffer : Z) : bool :=
  let b := ccd_bounds im_shape in
  let ccd_bnds :=
    if buffer >? 0
    then mkzb (zrowmin b + buffer) (zrowmax b - buffer) (zcolmin b + buffer) (zcolmax b - buffer)
    else b in
  contains_bounds ccd_bnds bounds.

(** [a[r1:r2, c1:c2]]: a basic slice of both axes. *)
Definition np_slice2 {A} (a : img A) (r1 r2 c1 c2 : Z) : img A :=
  let '(rs, re) := pyslice (nrows a) r1 r2 in
  let '(cs, ce) := pyslice (ncols a) c1 c2 in
  mkimg (Z.max 0 (re - rs)) (Z.max 0 (ce - cs)) (fun r c => px a (rs + r) (cs + c)).

Section SeImage.
Context {F : Type} {FO : FloatOps F}.

(** compute_slice_bounds, 1185-1223. The position [(col, row)] is the result of
    [self.sky2image(ra, dec)]. [int] of a NaN is a ValueError (of an infinity an
    OverflowError, not distinguished here). *)
Definition compute_slice_bounds (frac_buffer : F) (box_size : Z) (col row : F) : result zbounds :=
  match ftrunc (fmul frac_buffer (fofZ box_size)) with
  | None => Raise ValueError
  | Some b =>
      let buff_box_size := if negb (b mod 2 =? box_size mod 2) then b + 1 else b in
      let buff_box_cen := fdiv (fofZ (buff_box_size - 1)) (fofZ 2) in
      match ffloor (fadd (fsub row buff_box_cen) fhalf), ffloor (fadd (fsub col buff_box_cen) fhalf) with
      | Some se_start_row, Some se_start_col =>
          Ok (mkzb se_start_row (se_start_row + buff_box_size - 1)
                   se_start_col (se_start_col + buff_box_size - 1))
      | _, _ => Raise ValueError
      end
  end.

(** What [set_slice] stores on the object (675-724). *)
Record slice_data := mkslice {
  sl_x_start : Z;
  sl_y_start : Z;
  sl_box_size : Z;
  sl_image : img F;
  sl_weight : img F;
  sl_bmask : img Z;
  sl_noises : list (img F)
}.

(** [source_info]: the CCD number, the zero point and the images, read from
    disk or given as arrays. *)
Record source := mksrc {
  so_ccdnum : Z;
  so_magzp : F;
  so_image : img F;
  so_bkg : img F;
  so_weight : img F
}.

(** [10.0**x]. *)
Variable pow10 : F -> F.

(** 680; MAGZP_REF = 30.0, _constants.py:17. *)
Definition zp_scale (magzp : F) : F := pow10 (fmul (fdec 4 10) (fsub (fofZ 30) magzp)).

Variable normal : Z -> Z -> F.
Variable store : F -> F.

Fixpoint read_noises (wgt : img F) (scale : F) (y_start x_start box_size : Z) (seeds : list Z)
  : result (list (img F)) :=
  match seeds with
  | [] => Ok []
  | noise_seed :: seeds =>
      nse <- get_noise_image normal store wgt scale noise_seed ;;
      rest <- read_noises wgt scale y_start x_start box_size seeds ;;
      Ok (np_slice2 nse y_start (y_start + box_size) x_start (x_start + box_size) :: rest)
  end.

(** set_slice, 661-724. [bmask] is the array returned by [_read_image] for the
    mask; the second result is its contents afterwards, since the tape bumps are
    set in place. Subtraction of images of different shapes (numpy: ValueError
    or broadcasting) is a ValueError. *)
Definition set_slice (s : source) (mask_tape_bumps : bool) (noise_seeds : list Z)
  (bmask : img Z) (patch_bnds : zbounds) : result (slice_data * img Z) :=
  let x_start := zcolmin patch_bnds in
  let y_start := zrowmin patch_bnds in
  let box_size := zcolmax patch_bnds - zcolmin patch_bnds + 1 in
  if negb (box_size =? zrowmax patch_bnds - zrowmin patch_bnds + 1) then Raise AssertionError else
  let scale := zp_scale (so_magzp s) in
  let cut {A} (a : img A) := np_slice2 a y_start (y_start + box_size) x_start (x_start + box_size) in
  if negb (same_shape (so_image s) (so_bkg s)) then Raise ValueError else
  let im := imap2 fsub (so_image s) (so_bkg s) in
  let image := imap (fun x => fmul x scale) (cut im) in
  bmask <- (if mask_tape_bumps then set_tape_bump_mask (so_ccdnum s) bmask else Ok bmask) ;;
  let weight := imap (fun w => fdiv w (fmul scale scale)) (cut (so_weight s)) in
  noises <- read_noises (so_weight s) scale y_start x_start box_size noise_seeds ;;
  Ok (mkslice x_start y_start box_size image weight (cut bmask) noises, bmask).

(** A sequence of [set_slice] calls that all read their mask through the image
    cache (694-702, [_read_image_cached]). [disk] gives the contents of the mask
    files. An exception stops the run. *)
Record read_request := mkreq {
  rq_source : source;
  rq_tape : bool;
  rq_seeds : list Z;
  rq_mask : Z;                        (* identifies mask file and extension *)
  rq_bounds : zbounds
}.

Definition set_slice_cached (maxsize : nat) (disk : Z -> img Z) (st : @cache Z (img Z))
  (q : read_request) : result (slice_data * @cache Z (img Z)) :=
  match cached_call Z.eqb maxsize (fun k => Ok (disk k)) st (rq_mask q) with
  | (Raise e, _) => Raise e
  | (Ok bmask, st) =>
      '(sl, bmask) <- set_slice (rq_source q) (rq_tape q) (rq_seeds q) bmask (rq_bounds q) ;;
      Ok (sl, modify_entry Z.eqb (rq_mask q) (fun _ => bmask) st)
  end.

Fixpoint run_reads (maxsize : nat) (disk : Z -> img Z) (st : @cache Z (img Z))
  (qs : list read_request) : result (list slice_data) :=
  match qs with
  | [] => Ok []
  | q :: qs =>
      '(sl, st) <- set_slice_cached maxsize disk st q ;;
      rest <- run_reads maxsize disk st qs ;;
      Ok (sl :: rest)
  end.

End SeImage.
