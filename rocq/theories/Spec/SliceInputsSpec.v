(** Specification vocabulary for the selection of single-epoch images. *)
From Coq Require Import ZArith List Bool String Reals.
From Coq Require Import List.
From Flocq Require Import Core.Raux Core.Zaux.
From Verif Require Import Lib.Base Lib.Floats Spec.FloatSpec Spec.FlagSpec Spec.InterpSpec
  Model.Interp Model.SliceInputs.
Import ListNotations.
Open Scope list_scope.
Open Scope Z_scope.

Definition shape_is {A} (nr nc : Z) (a : img A) : Prop := nrows a = nr /\ ncols a = nc.

Definition opt_shape_is {A} (nr nc : Z) (a : option (img A)) : Prop :=
  match a with Some a => shape_is nr nc a | None => True end.

(** The entries of [l] whose mark in [marks] is [b], in order. *)
Definition pick {A} (b : bool) (marks : list bool) (l : list A) : list A :=
  map snd (filter (fun p => Bool.eqb (fst p) b) (combine marks l)).

Section S.
Context {F : Type} `{FloatOps F} {RNG : Type}.

(** All arrays of a slice have the same, non-empty shape. *)
Definition shaped (nr nc : Z) (s : se_slice (F := F)) : Prop :=
  1 <= nr /\ 1 <= nc /\ shape_is nr nc (sl_image s) /\ shape_is nr nc (sl_weight s) /\
  shape_is nr nc (sl_bmask s) /\ Forall (shape_is nr nc) (sl_noises s).

(** [u] is made from the slice [s]: the same place, the same PSF image and as many
    noise images, and arrays of the same shape. *)
Record made_from (s : se_slice (F := F)) (u : used_slice (F := F)) : Prop := mkmade {
  mf_id : sl_image_id (u_slice u) = sl_image_id s;
  mf_x_start : sl_x_start (u_slice u) = sl_x_start s;
  mf_y_start : sl_y_start (u_slice u) = sl_y_start s;
  mf_box_size : sl_box_size (u_slice u) = sl_box_size s;
  mf_psf : sl_psf (u_slice u) = sl_psf s;
  mf_psf_x_start : sl_psf_x_start (u_slice u) = sl_psf_x_start s;
  mf_psf_y_start : sl_psf_y_start (u_slice u) = sl_psf_y_start s;
  mf_psf_box_size : sl_psf_box_size (u_slice u) = sl_psf_box_size s;
  mf_noises : length (sl_noises (u_slice u)) = length (sl_noises s);
  mf_shapes : forall nr nc, shaped nr nc s -> shaped nr nc (u_slice u) /\
    shape_is nr nc (u_pmask u) /\ shape_is nr nc (u_interp_frac u) /\
    shape_is nr nc (u_interp_only_image u);
  mf_frac : forall r c, px (u_interp_frac u) r c = if px (u_pmask u) r c =? 0 then fzero else fone
}.

(** The pixels of [u] that are not marked are those of [s]. *)
Definition unmarked_kept (s : se_slice (F := F)) (u : used_slice (F := F)) : Prop :=
  forall r c, inb (sl_image s) r c -> px (u_pmask u) r c = 0 ->
    feqb (px (sl_image (u_slice u)) r c) (px (sl_image s) r c) = true /\
    forall k a b, nth_error (sl_noises s) k = Some a -> nth_error (sl_noises (u_slice u)) k = Some b ->
      feqb (px b r c) (px a r c) = true.

(** Images that survive the rough cut. *)
Definition candidate (s : se_source (F := F)) : bool :=
  (src_image_flags s =? 0) && src_contains_radec s && src_contains_bounds s.

(** [s] is cut out of one of the images that survive the rough cut; its pixels may
    have been changed. *)
Definition cut_out_of (srcs : list (se_source (F := F))) (s : se_slice (F := F)) : Prop :=
  exists src s0, In src srcs /\ candidate src = true /\ src_slice src = Ok s0 /\
    sl_image_id s = sl_image_id s0 /\ sl_x_start s = sl_x_start s0 /\
    sl_y_start s = sl_y_start s0 /\ sl_box_size s = sl_box_size s0 /\
    forall nr nc, shaped nr nc s0 -> shaped nr nc s.

(** The slice cut out of a source and the verdict on its PSF model. *)
Definition cut_from (src : se_source (F := F)) (sp : se_slice (F := F) * bool) : Prop :=
  src_slice src = Ok (fst sp) /\ src_psf_flag src = snd sp.

(** Outlier rejection: [outliers] is given all images and all weight maps, and
    what it answers for the [k]-th of them replaces the pixels of the [k]-th
    image and weight map; nothing else changes. *)
Definition outliers_replaced
  (outliers : list (img F) -> list (img F) -> nat -> (Z -> Z -> F) * (Z -> Z -> F))
  (before after : list (se_slice (F := F) * bool)) : Prop :=
  let answer := outliers (map (fun sp => sl_image (fst sp)) before)
                         (map (fun sp => sl_weight (fst sp)) before) in
  length after = length before /\
  forall k s p, nth_error before k = Some (s, p) ->
    nth_error after k = Some
      (mkslice (sl_image_id s) (sl_x_start s) (sl_y_start s) (sl_box_size s)
         (mkimg (nrows (sl_image s)) (ncols (sl_image s)) (fst (answer k)))
         (mkimg (nrows (sl_weight s)) (ncols (sl_weight s)) (snd (answer k)))
         (sl_bmask s) (sl_noises s) (sl_psf s) (sl_psf_x_start s) (sl_psf_y_start s)
         (sl_psf_box_size s), p).

(** One row of the epochs table, apart from its flags and its weight. *)
Definition describes (id : Z) (row : epoch_row (F := F)) (s : se_slice (F := F)) : Prop :=
  er_id row = id /\ er_image_id row = sl_image_id s /\
  er_row_start row = sl_y_start s /\ er_col_start row = sl_x_start s /\
  er_box_size row = sl_box_size s /\ er_psf_row_start row = sl_psf_y_start s /\
  er_psf_col_start row = sl_psf_x_start s /\ er_psf_box_size row = sl_psf_box_size s.

(** Some edge has no positive weight at all or is flagged all along. *)
Definition full_edge_unusable (w : img F) (b : img Z) (flags : Z) : Prop :=
  exists e,
    (forall r c, inb w r c -> on_edge (nrows w) (ncols w) e r c -> no_weight (px w r c)) \/
    (forall r c, inb w r c -> on_edge (nrows w) (ncols w) e r c -> flagged flags (px b r c)).

Definition some_pixel_flagged (b : img Z) (flags : Z) : Prop :=
  exists r c, inb b r c /\ flagged flags (px b r c).

(** Among the pixels that are not ignored, the fraction with property [P] is at
    least [mx]; the fraction is taken to be one if everything is ignored. *)
Definition fraction_at_least (nr nc : Z) (ignore : option (img bool)) (P : Z -> Z -> Prop)
  (mx : F) : Prop :=
  ((forall r c, 0 <= r < nr -> 0 <= c < nc -> ~ counted ignore r c) /\ fleb mx fone = true) \/
  (exists n d,
     counts nr nc (fun r c => P r c /\ counted ignore r c) n /\
     counts nr nc (fun r c => counted ignore r c) d /\
     0 < d /\ fleb mx (fdiv (fofZ n) (fofZ d)) = true).

(** The checks made before anything is interpolated, by the bit that reports
    them: 0 a full edge is masked, 1 forbidden flags, 2 masked fraction, 5 PSF
    model. *)
Definition failed (cf : config (F := F)) (gaia : option (img bool)) (s : se_slice (F := F))
  (psf_flag : bool) (k : Z) : Prop :=
  (k = 0 /\ cf_copy_masked_edges cf = false /\
     full_edge_unusable (sl_weight s) (sl_bmask s) (cf_spline_flags cf)) \/
  (k = 1 /\ some_pixel_flagged (sl_bmask s) (cf_bad_image_flags cf)) \/
  (k = 2 /\ fraction_at_least (nrows (sl_weight s)) (ncols (sl_weight s)) gaia
     (unusable (sl_weight s) (sl_bmask s) (Z.lor (cf_spline_flags cf) (cf_noise_flags cf)))
     (cf_max_masked_fraction cf)) \/
  (k = 5 /\ psf_flag = true).

(** ** Noise interpolation *)

(** The weight that sets the noise level of a pixel: its own, or the largest
    positive one [mx] if it has none. *)
Definition fill_weight (mx w : F) : F :=
  if fleb w fzero then fadd (fmul w fzero) (fmul mx fone)
  else fadd (fmul w fone) (fmul mx fzero).

Definition filled_one (normal2 : RNG -> Z -> Z -> (Z -> Z -> F) * RNG) (mx : F)
  (flags : Z) (w : img F) (b : img Z) (a a' : img F) (rng rng' : RNG) : Prop :=
  exists draw, normal2 rng (nrows w) (ncols w) = (draw, rng') /\
    nrows a' = nrows a /\ ncols a' = ncols a /\
    forall r c, inb a r c ->
      (flagged flags (px b r c) ->
         px a' r c = fmul (draw r c) (fsqrt (fdiv fone (fill_weight mx (px w r c))))) /\
      (~ flagged flags (px b r c) -> px a' r c = px a r c).

Inductive filled_all (normal2 : RNG -> Z -> Z -> (Z -> Z -> F) * RNG) (mx : F)
  (flags : Z) (w : img F) (b : img Z) : list (img F) -> list (img F) -> RNG -> RNG -> Prop :=
| fa_nil : forall rng, filled_all normal2 mx flags w b [] [] rng rng
| fa_cons : forall a a' l l' rng rng1 rng2,
    filled_one normal2 mx flags w b a a' rng rng1 ->
    filled_all normal2 mx flags w b l l' rng1 rng2 ->
    filled_all normal2 mx flags w b (a :: l) (a' :: l') rng rng2.

Definition noise_filled (normal2 : RNG -> Z -> Z -> (Z -> Z -> F) * RNG)
  (cf : config (F := F)) (s : se_slice (F := F)) (rng : RNG)
  (im : img F) (ns : list (img F)) (rng' : RNG) : Prop :=
  (~ some_pixel_flagged (sl_bmask s) (cf_noise_flags cf) /\
   im = sl_image s /\ ns = sl_noises s /\ rng' = rng) \/
  (some_pixel_flagged (sl_bmask s) (cf_noise_flags cf) /\
   exists pos mx,
     pixels_where (nrows (sl_weight s)) (ncols (sl_weight s))
       (fun r c => fleb (px (sl_weight s) r c) fzero = false) pos /\
     np_max (map (fun rc => px (sl_weight s) (fst rc) (snd rc)) pos) = Ok mx /\
     filled_all normal2 mx (cf_noise_flags cf) (sl_weight s) (sl_bmask s)
       (sl_image s :: sl_noises s) (im :: ns) rng rng').

(** ** Which pixels are marked in the pixel mask *)

Definition unequal (x y : F) : Prop := feqb x y = false.

(** Some noise field is different at this pixel afterwards. *)
Definition noise_changed (old new : list (img F)) (r c : Z) : Prop :=
  exists k a b, nth_error old k = Some a /\ nth_error new k = Some b /\
    unequal (px b r c) (px a r c).

Definition marked (cf : config (F := F)) (s : se_slice (F := F))
  (im : img F) (ns : list (img F))
  (im2 : img F) (ns2 : list (img F)) (w2 : img F) (b2 : img Z)
  (im3 : img F) (ns3 : list (img F)) (r c k : Z) : Prop :=
  (k = 28 /\ flagged (cf_noise_flags cf) (px (sl_bmask s) r c)) \/
  (k = 27 /\
   ((cf_copy_masked_edges cf = true /\
       (unequal (px im r c) (px im2 r c) \/ noise_changed ns ns2 r c)) \/
    unequal (px im3 r c) (px im2 r c) \/ noise_changed ns2 ns3 r c \/
    fltb (px w2 r c) fzero = true \/ flagged (cf_spline_flags cf) (px b2 r c))).

(** The pixel mask [pm] has exactly the marked bits. *)
Definition pmask_is (nr nc : Z) (pm : img Z) (mk : Z -> Z -> Z -> Prop) : Prop :=
  shape_is nr nc pm /\
  forall r c, inb pm r c -> 0 <= px pm r c /\
    forall k, 0 <= k -> (Z.testbit (px pm r c) k = true <-> mk r c k).

(** The slice after interpolation. *)
Record interpolated_slice (s : se_slice (F := F)) (im : img F) (ns : list (img F))
  (pm : img Z) (u : used_slice (F := F)) : Prop := {
  is_slice : u_slice u =
    mkslice (sl_image_id s) (sl_x_start s) (sl_y_start s) (sl_box_size s) im (sl_weight s)
      (sl_bmask s) ns (sl_psf s) (sl_psf_x_start s) (sl_psf_y_start s) (sl_psf_box_size s);
  is_pmask : u_pmask u = pm;
  is_orig : u_orig_image u = sl_image s;
  is_frac_shape : nrows (u_interp_frac u) = nrows (sl_image s) /\
                  ncols (u_interp_frac u) = ncols (sl_image s);
  is_frac : forall r c, px (u_interp_frac u) r c = if px pm r c =? 0 then fzero else fone;
  is_only_shape : nrows (u_interp_only_image u) = nrows im /\
                  ncols (u_interp_only_image u) = ncols im;
  is_only : forall r c, px (u_interp_only_image u) r c =
                        if px pm r c =? 0 then fzero else px im r c
}.

(** ** The verdict on one image *)
Context (normal : RNG -> nat -> F -> list F * RNG)
        (normal2 : RNG -> Z -> Z -> (Z -> Z -> F) * RNG)
        (interpolator : list (Z * Z) -> list F -> result (Z * Z -> F))
        (median : list F -> F) (measure_fwhm : img F -> F).

(** Image, noise fields, weight and mask that enter the interpolation. *)
Definition prepared (cf : config (F := F)) (s : se_slice (F := F)) (im : img F)
  (ns : list (img F)) (im2 : img F) (ns2 : list (img F)) (w2 : img F) (b2 : img Z) : Prop :=
  if cf_copy_masked_edges cf
  then copy_masked_edges_image_and_noise im ns (sl_weight s) (sl_bmask s) (cf_spline_flags cf)
       = Ok (mkes im2 ns2 b2 w2)
  else im2 = im /\ ns2 = ns /\ w2 = sl_weight s /\ b2 = sl_bmask s.

Definition interpolate (cf : config (F := F)) (im2 : img F) (ns2 : list (img F)) (w2 : img F)
  (b2 : img Z) : result (option (img F * list (img F)) * option RNG) :=
  interpolate_image_and_noise normal interpolator median im2 ns2 w2 b2 (cf_spline_flags cf)
    None (fdec 9 10) 4 false 1.

Inductive judged (cf : config (F := F)) (gaia : option (img bool)) (s : se_slice (F := F))
  (psf_flag : bool) (rng : RNG) : verdict (F := F) -> RNG -> Prop :=
| rejected_first : forall flags,
    (exists k, failed cf gaia s psf_flag k) ->
    (forall k, 0 <= k -> (Z.testbit flags k = true <-> failed cf gaia s psf_flag k)) ->
    judged cf gaia s psf_flag rng (NotUsed s flags) rng
| rejected_edges : forall im ns rng' im2 ns2 w2 b2,
    (forall k, ~ failed cf gaia s psf_flag k) ->
    noise_filled normal2 cf s rng im ns rng' ->
    cf_copy_masked_edges cf = true ->
    prepared cf s im ns im2 ns2 w2 b2 ->
    full_edge_unusable w2 b2 (cf_spline_flags cf) ->
    judged cf gaia s psf_flag rng (NotUsed s 1) rng'
| rejected_interp : forall im ns rng' im2 ns2 w2 b2,
    (forall k, ~ failed cf gaia s psf_flag k) ->
    noise_filled normal2 cf s rng im ns rng' ->
    prepared cf s im ns im2 ns2 w2 b2 ->
    ~ full_edge_unusable w2 b2 (cf_spline_flags cf) ->
    (exists x, interpolate cf im2 ns2 w2 b2 = Ok (None, x)) ->
    judged cf gaia s psf_flag rng (NotUsed s 16) rng'
| rejected_fraction : forall im ns rng' im2 ns2 w2 b2 im3 ns3 pm,
    (forall k, ~ failed cf gaia s psf_flag k) ->
    noise_filled normal2 cf s rng im ns rng' ->
    prepared cf s im ns im2 ns2 w2 b2 ->
    ~ full_edge_unusable w2 b2 (cf_spline_flags cf) ->
    (exists x, interpolate cf im2 ns2 w2 b2 = Ok (Some (im3, ns3), x)) ->
    pmask_is (nrows (sl_bmask s)) (ncols (sl_bmask s)) pm
      (marked cf s im ns im2 ns2 w2 b2 im3 ns3) ->
    fraction_at_least (nrows (sl_weight s)) (ncols (sl_weight s)) gaia
      (fun r c => px pm r c <> 0) (cf_max_masked_fraction cf) ->
    judged cf gaia s psf_flag rng (NotUsed s 4) rng'
| accepted : forall im ns rng' im2 ns2 w2 b2 im3 ns3 pm u wt,
    (forall k, ~ failed cf gaia s psf_flag k) ->
    noise_filled normal2 cf s rng im ns rng' ->
    prepared cf s im ns im2 ns2 w2 b2 ->
    ~ full_edge_unusable w2 b2 (cf_spline_flags cf) ->
    (exists x, interpolate cf im2 ns2 w2 b2 = Ok (Some (im3, ns3), x)) ->
    pmask_is (nrows (sl_bmask s)) (ncols (sl_bmask s)) pm
      (marked cf s im ns im2 ns2 w2 b2 im3 ns3) ->
    ~ fraction_at_least (nrows (sl_weight s)) (ncols (sl_weight s)) gaia
      (fun r c => px pm r c <> 0) (cf_max_masked_fraction cf) ->
    interpolated_slice s im3 ns3 pm u ->
    build_coadd_weight measure_fwhm (cf_coadding_weight cf) (sl_weight s) (sl_psf s) = Ok wt ->
    judged cf gaia s psf_flag rng (Used u wt) rng'.

(** The verdicts on a list of images; the random state is handed on. *)
Inductive judged_all (rotate : F -> img F -> img F) (cf : config (F := F))
  (map_gaia : option (se_slice (F := F) -> result (img bool)))
  : list (se_slice (F := F) * bool) -> RNG -> list (verdict (F := F)) -> RNG -> Prop :=
| ja_nil : forall rng, judged_all rotate cf map_gaia [] rng [] rng
| ja_cons : forall s p l gaia s' v vs rng rng1 rng2,
    match map_gaia with
    | Some f => exists g, f s = Ok g /\ gaia = Some g
    | None => gaia = None
    end ->
    symmetrize_slice rotate cf gaia s = Ok s' ->
    judged cf gaia s' p rng v rng1 ->
    judged_all rotate cf map_gaia l rng1 vs rng2 ->
    judged_all rotate cf map_gaia ((s, p) :: l) rng (v :: vs) rng2.

End S.

(** ** Weights, exact arithmetic *)
(** The largest pixel. *)
Definition largest_pixel (a : img R) (m : R) : Prop :=
  (exists r c, inb a r c /\ px a r c = m) /\ forall r c, inb a r c -> (px a r c <= m)%R.

Definition raw_weight (measure_fwhm : img R -> R) (cf : config (F := R))
  (u : used_slice (F := R)) (x : R) : Prop :=
  exists m, largest_pixel (sl_weight (u_slice u)) m /\
    ((cf_coadding_weight cf = "noise"%string /\ x = m) \/
     (cf_coadding_weight cf = "noise-fwhm"%string /\
      x = m / measure_fwhm (sl_psf (u_slice u)) ^ 4)%R).

(** ** Weights, doubles *)
(** Every pixel of the weight map is a finite double, and the positive ones are not
    near the limits of the range. *)
Definition ordinary_weight_map (w : img f64) : Prop :=
  forall r c, inb w r c -> exists v, f64_is (px w r c) v /\
    (v <= 0 \/ bpow radix2 (-150) <= v <= bpow radix2 150)%R.

Definition largest_value (w : img f64) (m : R) : Prop :=
  (exists r c, inb w r c /\ f64_is (px w r c) m) /\
  forall r c v, inb w r c -> f64_is (px w r c) v -> (v <= m)%R.

Definition raw_weight_double (measure_fwhm : img f64 -> f64) (coadding_weight : string)
  (u : used_slice (F := f64)) (x : R) : Prop :=
  exists m, largest_value (sl_weight (u_slice u)) m /\
    ((coadding_weight = "noise"%string /\ x = m) \/
     (coadding_weight = "noise-fwhm"%string /\
      exists fwhm, f64_is (measure_fwhm (sl_psf (u_slice u))) fwhm /\ x = m / fwhm ^ 4)%R).

(** The images used for a slice, for which C38 holds in doubles. *)
Definition ordinary_inputs (measure_fwhm : img f64 -> f64) (coadding_weight : string)
  (us : list (used_slice (F := f64))) : Prop :=
  (forall u, In u us -> ordinary_weight_map (sl_weight (u_slice u))) /\
  (coadding_weight = "noise-fwhm"%string -> forall u, In u us ->
     exists fwhm, f64_is (measure_fwhm (sl_psf (u_slice u))) fwhm /\
       (bpow radix2 (-10) <= Rabs fwhm <= bpow radix2 10)%R) /\
  Z.of_nat (length us) <= 2 ^ 40.
