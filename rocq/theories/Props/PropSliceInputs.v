(** C36, C37, C38, C40: selection of the single-epoch images of a slice. *)
From Coq Require Import ZArith List Bool String Lia Permutation Reals Lra SpecFloat.
From Flocq Require Import Core.Raux Core.Zaux.
From Coq Require Import List.
From Verif Require Import Lib.Base Lib.Floats Spec.FloatSpec Proofs.F64Facts Proofs.WeightF64 Model.Flag Model.Symmetrize Model.Interp
  Model.SliceInputs Spec.FlagSpec Spec.InterpSpec Proofs.BaseFacts
  Proofs.SliceInputsProofs Proofs.SelectProofs Proofs.WeightProofs Spec.SliceInputsSpec.
Import ListNotations.
Open Scope list_scope.
Open Scope Z_scope.

(** C36: [slices] are the cut-outs of the images that can contribute, in input
    order. If the PSF model of each of them is bad nothing is recorded;
    otherwise each is recorded once, the used ones first, in input order on
    both sides. *)
Theorem C36_every_epoch_recorded_once :
  forall (F : Type) (FO : FloatOps F) (RNG : Type)
         (rotate : F -> img F -> img F) (normal : RNG -> nat -> F -> list F * RNG)
         (normal2 : RNG -> Z -> Z -> (Z -> Z -> F) * RNG)
         (interpolator : list (Z * Z) -> list F -> result (Z * Z -> F)) (median : list F -> F)
         (measure_fwhm : img F -> F)
         (outliers : list (img F) -> list (img F) -> nat -> (Z -> Z -> F) * (Z -> Z -> F))
         (cf : config) (map_gaia : option (se_slice -> result (img bool)))
         (srcs : list se_source) (rng : RNG) (out : slice_inputs) (rng' : RNG) (id : Z),
  build_slice_inputs rotate normal normal2 interpolator median measure_fwhm outliers cf map_gaia
    srcs rng = Ok (out, rng') ->
  let cand := filter candidate srcs in
  let rows := make_epochs_info id (si_weights out) (si_slices out) (si_not_used out)
                (si_flags out) in
  exists slices,
    Forall2 (fun (src : se_source) s => src_slice src = Ok s) cand slices /\
    (Forall (fun src => src_psf_flag src = true) cand -> rows = []) /\
    (Exists (fun src => src_psf_flag src = false) cand ->
     exists marks used_rows unused_rows,
       length marks = length slices /\
       rows = used_rows ++ unused_rows /\
       Forall2 (describes id) used_rows (pick true marks slices) /\
       Forall2 (describes id) unused_rows (pick false marks slices) /\
       Forall (fun r => er_flags r = 0) used_rows /\
       map er_weight used_rows = si_weights out /\
       Forall (fun r => er_flags r <> 0 /\ er_weight r = fzero) unused_rows /\
       map er_flags unused_rows = si_flags out).
Proof. intros. eapply epochs_spec. eassumption. Qed.

(** C36, the image ids: each contributing image once. *)
Theorem C36_image_ids_recorded :
  forall (F : Type) (FO : FloatOps F) (RNG : Type)
         (rotate : F -> img F -> img F) (normal : RNG -> nat -> F -> list F * RNG)
         (normal2 : RNG -> Z -> Z -> (Z -> Z -> F) * RNG)
         (interpolator : list (Z * Z) -> list F -> result (Z * Z -> F)) (median : list F -> F)
         (measure_fwhm : img F -> F)
         (outliers : list (img F) -> list (img F) -> nat -> (Z -> Z -> F) * (Z -> Z -> F))
         (cf : config) (map_gaia : option (se_slice -> result (img bool)))
         (srcs : list se_source) (rng : RNG) (out : slice_inputs) (rng' : RNG) (id : Z)
         (slices : list se_slice),
  build_slice_inputs rotate normal normal2 interpolator median measure_fwhm outliers cf map_gaia
    srcs rng = Ok (out, rng') ->
  Forall2 (fun (src : se_source) s => src_slice src = Ok s) (filter candidate srcs) slices ->
  Exists (fun src => src_psf_flag src = false) (filter candidate srcs) ->
  Permutation (map sl_image_id slices)
    (map er_image_id (make_epochs_info id (si_weights out) (si_slices out) (si_not_used out)
                        (si_flags out))).
Proof.
  intros F FO RNG rotate normal normal2 interpolator median fwhm outliers cf mg srcs rng out rng' id
    slices E Hs Hex.
  destruct (epochs_spec _ _ _ _ _ _ _ _ _ _ _ _ _ id E) as (sl & H1 & _ & H3).
  destruct (H3 Hex) as (marks & ur & nr & L & -> & U & N & _).
  assert (sl = slices) as <-.
  { clear - H1 Hs. revert slices Hs. induction H1 as [|x y l l' Hx _ IH]; intros slices Hs;
      inversion Hs; subst; [reflexivity|]. f_equal; [congruence|auto]. }
  assert (K : forall rs ss, Forall2 (describes id) rs ss ->
            map er_image_id rs = map (sl_image_id (F := F)) ss).
  { clear. induction 1 as [|r s rs ss (_ & H & _) _ IH]; cbn; congruence. }
  rewrite map_app, (K _ _ U), (K _ _ N), <- map_app.
  apply Permutation_map. apply pick_perm. exact L.
Qed.

(** C37: the verdict on each image, with the state of the random stream handed
    from one to the next. [judged] says which checks decide what. *)
Theorem C37_verdicts_exact :
  forall (F : Type) (FO : FloatOps F) (RNG : Type)
         (rotate : F -> img F -> img F) (normal : RNG -> nat -> F -> list F * RNG)
         (normal2 : RNG -> Z -> Z -> (Z -> Z -> F) * RNG)
         (interpolator : list (Z * Z) -> list F -> result (Z * Z -> F)) (median : list F -> F)
         (measure_fwhm : img F -> F)
         (outliers : list (img F) -> list (img F) -> nat -> (Z -> Z -> F) * (Z -> Z -> F)),
  (forall r n x, length (fst (normal r n x)) = n) ->
  forall (cf : config) (map_gaia : option (se_slice -> result (img bool)))
         (srcs : list se_source) (rng : RNG) (out : slice_inputs) (rng' : RNG),
  (forall src s, In src srcs -> src_slice src = Ok s -> exists nr nc, shaped nr nc s) ->
  (forall f s g nr nc, map_gaia = Some f -> shaped nr nc s -> cut_out_of srcs s ->
     f s = Ok g -> shape_is nr nc g) ->
  build_slice_inputs rotate normal normal2 interpolator median measure_fwhm outliers cf map_gaia
    srcs rng = Ok (out, rng') ->
  exists possible,
    Forall2 cut_from (filter candidate srcs) possible /\
    (Forall (fun sp => snd sp = true) possible ->
       out = mkinputs [] [] [] [] /\ rng' = rng) /\
    (Exists (fun sp => snd sp = false) possible ->
     exists considered verdicts,
       (if cf_reject_outliers cf then outliers_replaced outliers possible considered
        else considered = possible) /\
       judged_all normal normal2 interpolator median measure_fwhm rotate cf map_gaia
         considered rng verdicts rng' /\
       out = mkinputs (used_of verdicts) (normalise (weights_of verdicts))
               (not_used_of verdicts) (flags_of verdicts)).
Proof.
  intros F FO RNG rotate normal normal2 interpolator median fwhm outliers Hn cf mg srcs rng out rng' Hs Hg E.
  destruct (build_judged rotate normal normal2 interpolator median fwhm outliers cf mg srcs rng out rng'
              Hn Hs Hg E) as (poss & H1 & H2 & H3).
  exists poss. split; [exact H1|]. split; [exact H2|]. intros He. destruct (H3 He) as (vs & J & O).
  exists (if cf_reject_outliers cf then reject_outliers outliers poss else poss), vs.
  split; [|split; assumption].
  destruct (cf_reject_outliers cf); [apply reject_outliers_spec|reflexivity].
Qed.

(** C37: what a used image is guaranteed to satisfy. *)
Theorem C37_used_images_acceptable :
  forall (F : Type) (FO : FloatOps F) (RNG : Type)
         (rotate : F -> img F -> img F) (normal : RNG -> nat -> F -> list F * RNG)
         (normal2 : RNG -> Z -> Z -> (Z -> Z -> F) * RNG)
         (interpolator : list (Z * Z) -> list F -> result (Z * Z -> F)) (median : list F -> F)
         (measure_fwhm : img F -> F)
         (outliers : list (img F) -> list (img F) -> nat -> (Z -> Z -> F) * (Z -> Z -> F)),
  (forall r n x, length (fst (normal r n x)) = n) ->
  forall (cf : config) (map_gaia : option (se_slice -> result (img bool)))
         (srcs : list se_source) (rng : RNG) (out : slice_inputs) (rng' : RNG),
  (forall src s, In src srcs -> src_slice src = Ok s -> exists nr nc, shaped nr nc s) ->
  (forall f s g nr nc, map_gaia = Some f -> shaped nr nc s -> cut_out_of srcs s ->
     f s = Ok g -> shape_is nr nc g) ->
  build_slice_inputs rotate normal normal2 interpolator median measure_fwhm outliers cf map_gaia
    srcs rng = Ok (out, rng') ->
  forall u, In u (si_slices out) ->
  exists src s0 s1 gaia,
    In src srcs /\ src_image_flags src = 0 /\ src_contains_radec src = true /\
    src_contains_bounds src = true /\ src_psf_flag src = false /\
    src_slice src = Ok s0 /\ sl_image_id (u_slice u) = sl_image_id s0 /\
    sl_image_id s1 = sl_image_id s0 /\ sl_x_start s1 = sl_x_start s0 /\
    sl_y_start s1 = sl_y_start s0 /\ sl_box_size s1 = sl_box_size s0 /\
    match map_gaia with
    | Some f => exists g, f s1 = Ok g /\ gaia = Some g
    | None => gaia = None end /\
    let w := sl_weight (u_slice u) in
    let b := sl_bmask (u_slice u) in
    ~ some_pixel_flagged b (cf_bad_image_flags cf) /\
    (cf_copy_masked_edges cf = false -> ~ full_edge_unusable w b (cf_spline_flags cf)) /\
    ~ fraction_at_least (nrows w) (ncols w) gaia
        (unusable w b (Z.lor (cf_spline_flags cf) (cf_noise_flags cf)))
        (cf_max_masked_fraction cf) /\
    ~ fraction_at_least (nrows w) (ncols w) gaia (fun r c => px (u_pmask u) r c <> 0)
        (cf_max_masked_fraction cf).
Proof.
  intros F FO RNG rotate normal normal2 interpolator median fwhm outliers Hn cf mg srcs rng out rng'
    Hs Hg E.
  exact (used_acceptable rotate normal normal2 interpolator median fwhm outliers cf mg srcs rng out
           rng' Hn Hs Hg E).
Qed.

(** C37: masks symmetrised with a list of angles: a weight is zeroed exactly if
    the weight map symmetrised with one of the angles is zero there, and a mask
    bit is set if it was or is in one of the symmetrised masks. *)
Theorem C37_masks_symmetrised_with_angles :
  forall (F : Type) (FO : FloatOps F) (rotate : F -> img F -> img F)
         (cf : config) (gaia : option (img bool)) (s s' : se_slice) (angles : list F),
  cf_symmetrize cf = SymAngles angles ->
  symmetrize_slice rotate cf gaia s = Ok s' ->
  let sflags := Z.lor (cf_spline_flags cf) (cf_noise_flags cf) in
  forall r c,
    ((exists a w, In a angles /\ symmetrize_weight rotate (sl_weight s) (Some a) gaia = Ok w /\
        feqb (px w r c) fzero = true) -> px (sl_weight s') r c = fzero) /\
    ((forall a w, In a angles -> symmetrize_weight rotate (sl_weight s) (Some a) gaia = Ok w ->
        feqb (px w r c) fzero = false) -> px (sl_weight s') r c = px (sl_weight s) r c) /\
    (forall k, 0 <= k -> (Z.testbit (px (sl_bmask s') r c) k = true <->
       Z.testbit (px (sl_bmask s) r c) k = true \/
       exists a b, In a angles /\
         symmetrize_bmask rotate (sl_bmask s) (Some a) gaia (Some sflags) = Ok b /\
         Z.testbit (px b r c) k = true)).
Proof.
  intros F FO rotate cf gaia s s' angles Ha E sflags r c. unfold symmetrize_slice in E.
  rewrite Ha in E. apply bind_ok in E as ([w b] & Es & E). apply Ok_inj in E. subst s'.
  exact (sym_angles_spec rotate _ _ _ _ _ _ _ _ _ Es r c).
Qed.

(** C37: masks symmetrised with the quarter turn, and left alone. *)
Theorem C37_masks_symmetrised_once :
  forall (F : Type) (FO : FloatOps F) (rotate : F -> img F -> img F)
         (cf : config) (gaia : option (img bool)) (s s' : se_slice),
  symmetrize_slice rotate cf gaia s = Ok s' ->
  (cf_symmetrize cf = SymOff -> s' = s) /\
  (cf_symmetrize cf = SymOnce ->
     symmetrize_weight rotate (sl_weight s) None gaia = Ok (sl_weight s') /\
     symmetrize_bmask rotate (sl_bmask s) None gaia
       (Some (Z.lor (cf_spline_flags cf) (cf_noise_flags cf))) = Ok (sl_bmask s')) /\
  sl_image s' = sl_image s /\ sl_noises s' = sl_noises s /\ sl_psf s' = sl_psf s /\
  sl_image_id s' = sl_image_id s /\ sl_box_size s' = sl_box_size s /\
  sl_x_start s' = sl_x_start s /\ sl_y_start s' = sl_y_start s.
Proof.
  intros F FO rotate cf gaia s s' E.
  pose proof (symmetrize_slice_fields rotate _ _ _ _ E) as Hf.
  split; [|split; [|rewrite Hf; repeat split; reflexivity]].
  - intros Ho. unfold symmetrize_slice in E. rewrite Ho in E. now apply Ok_inj in E.
  - intros Ho. unfold symmetrize_slice in E. rewrite Ho in E.
    apply bind_ok in E as (b & Eb & E). apply bind_ok in E as (w & Ew & E). apply Ok_inj in E.
    subst s'. split; assumption.
Qed.

(** C37: the selection always comes to a decision: arrays at least 2 x 2 (and
    square, if they are symmetrised), an interpolator that does not fail, a
    known weighting and a fraction limit of at most one are enough. *)
Theorem C37_selection_does_not_fail :
  forall (F : Type) (FO : FloatOps F) (RNG : Type)
         (rotate : F -> img F -> img F) (normal : RNG -> nat -> F -> list F * RNG)
         (normal2 : RNG -> Z -> Z -> (Z -> Z -> F) * RNG)
         (interpolator : list (Z * Z) -> list F -> result (Z * Z -> F)) (median : list F -> F)
         (measure_fwhm : img F -> F)
         (outliers : list (img F) -> list (img F) -> nat -> (Z -> Z -> F) * (Z -> Z -> F)),
  (forall r n x, length (fst (normal r n x)) = n) ->
  (forall ps vs, exists f, interpolator ps vs = Ok f) ->
  forall (cf : config) (map_gaia : option (se_slice -> result (img bool)))
         (srcs : list se_source) (rng : RNG),
  cf_coadding_weight cf = "noise"%string \/ cf_coadding_weight cf = "noise-fwhm"%string ->
  fleb (cf_max_masked_fraction cf) fone = true ->
  (forall n, 0 < n -> fleb (cf_max_masked_fraction cf) (fdiv (fofZ n) (fofZ n)) = true) ->
  (forall src, In src srcs -> candidate src = true ->
     exists s nr nc, src_slice src = Ok s /\ shaped nr nc s /\ 2 <= nr /\ 2 <= nc /\
       (cf_symmetrize cf = SymOff \/ nr = nc)) ->
  (forall f s nr nc, map_gaia = Some f -> shaped nr nc s -> cut_out_of srcs s ->
     exists g, f s = Ok g /\ shape_is nr nc g) ->
  exists out rng',
    build_slice_inputs rotate normal normal2 interpolator median measure_fwhm outliers cf
      map_gaia srcs rng = Ok (out, rng').
Proof. intros. eapply build_decides; eassumption. Qed.

(** C38, exact arithmetic. *)
Theorem C38_weights_normalised :
  forall (RNG : Type)
         (rotate : R -> img R -> img R) (normal : RNG -> nat -> R -> list R * RNG)
         (normal2 : RNG -> Z -> Z -> (Z -> Z -> R) * RNG)
         (interpolator : list (Z * Z) -> list R -> result (Z * Z -> R)) (median : list R -> R)
         (measure_fwhm : img R -> R)
         (outliers : list (img R) -> list (img R) -> nat -> (Z -> Z -> R) * (Z -> Z -> R)),
  (forall r n x, length (fst (normal r n x)) = n) ->
  forall (cf : config) (map_gaia : option (se_slice -> result (img bool)))
         (srcs : list se_source) (rng : RNG) (out : slice_inputs) (rng' : RNG),
  (forall src s, In src srcs -> src_slice src = Ok s -> exists nr nc, shaped nr nc s) ->
  (forall f s g nr nc, map_gaia = Some f -> shaped nr nc s -> cut_out_of srcs s ->
     f s = Ok g -> shape_is nr nc g) ->
  build_slice_inputs rotate normal normal2 interpolator median measure_fwhm outliers cf map_gaia
    srcs rng = Ok (out, rng') ->
  (cf_coadding_weight cf = "noise-fwhm"%string ->
     forall u, In u (si_slices out) -> measure_fwhm (sl_psf (u_slice u)) <> 0%R) ->
  exists raw,
    Forall2 (raw_weight measure_fwhm cf) (si_slices out) raw /\
    Forall (fun x => 0 < x)%R raw /\
    si_weights out = map (fun x => x / fold_right Rplus 0 raw)%R raw /\
    length (si_weights out) = length (si_slices out) /\
    Forall (fun x => 0 < x)%R (si_weights out) /\
    (si_slices out <> [] -> fold_right Rplus 0%R (si_weights out) = 1%R).
Proof.
  intros RNG rotate normal normal2 interpolator median fwhm outliers Hn cf mg srcs rng out rng'
    Hs Hg E Hf.
  exact (weights_normalised rotate normal normal2 interpolator median fwhm outliers cf mg srcs rng
           out rng' Hn Hs Hg E Hf).
Qed.

(** C38, doubles: [raw] are the exact raw weights, [ps] the values of the
    recorded weights, [n] images used. *)
Theorem C38_weights_normalised_double :
  forall (RNG : Type)
         (rotate : f64 -> img f64 -> img f64) (normal : RNG -> nat -> f64 -> list f64 * RNG)
         (normal2 : RNG -> Z -> Z -> (Z -> Z -> f64) * RNG)
         (interpolator : list (Z * Z) -> list f64 -> result (Z * Z -> f64)) (median : list f64 -> f64)
         (measure_fwhm : img f64 -> f64)
         (outliers : list (img f64) -> list (img f64) -> nat -> (Z -> Z -> f64) * (Z -> Z -> f64)),
  (forall r n x, length (fst (normal r n x)) = n) ->
  forall (cf : config) (map_gaia : option (se_slice -> result (img bool)))
         (srcs : list se_source) (rng : RNG) (out : slice_inputs) (rng' : RNG),
  (forall src s, In src srcs -> src_slice src = Ok s -> exists nr nc, shaped nr nc s) ->
  (forall f s g nr nc, map_gaia = Some f -> shaped nr nc s -> cut_out_of srcs s ->
     f s = Ok g -> shape_is nr nc g) ->
  build_slice_inputs rotate normal normal2 interpolator median measure_fwhm outliers cf map_gaia
    srcs rng = Ok (out, rng') ->
  ordinary_inputs measure_fwhm (cf_coadding_weight cf) (si_slices out) ->
  let n := INR (length (si_slices out)) in
  let total := fold_right Rplus 0%R in
  exists raw ps,
    Forall2 (raw_weight_double measure_fwhm (cf_coadding_weight cf)) (si_slices out) raw /\
    Forall (fun x => 0 < x)%R raw /\
    Forall2 f64_is (si_weights out) ps /\
    Forall2 (fun p x => bpow radix2 (-450) <= p <= 1 /\
      Rabs (p - x / total raw) <= (n + 9) * bpow radix2 (-52) * (x / total raw))%R ps raw /\
    (si_slices out <> [] -> (Rabs (total ps - 1) <= (n + 1) * bpow radix2 (-52))%R).
Proof.
  intros RNG rotate normal normal2 interpolator median fwhm outliers Hn cf mg srcs rng out rng'
    Hs Hg E Ho.
  exact (weights_normalised_double rotate normal normal2 interpolator median fwhm outliers cf mg srcs
           rng out rng' Hn Hs Hg E Ho).
Qed.

(** C38: an unknown weighting raises as soon as an image is good enough to be
    used, so nothing is ever coadded with it. *)
Theorem C38_unknown_weighting_fails :
  forall (F : Type) (FO : FloatOps F) (RNG : Type)
         (rotate : F -> img F -> img F) (normal : RNG -> nat -> F -> list F * RNG)
         (normal2 : RNG -> Z -> Z -> (Z -> Z -> F) * RNG)
         (interpolator : list (Z * Z) -> list F -> result (Z * Z -> F)) (median : list F -> F)
         (measure_fwhm : img F -> F)
         (outliers : list (img F) -> list (img F) -> nat -> (Z -> Z -> F) * (Z -> Z -> F))
         (cf : config),
  cf_coadding_weight cf <> "noise"%string -> cf_coadding_weight cf <> "noise-fwhm"%string ->
  (forall w psf, build_coadd_weight measure_fwhm (cf_coadding_weight cf) w psf = Raise ValueError) /\
  forall map_gaia srcs rng out rng',
  build_slice_inputs rotate normal normal2 interpolator median measure_fwhm outliers cf map_gaia
    srcs rng = Ok (out, rng') ->
  si_slices out = [] /\ si_weights out = [].
Proof.
  intros F FO RNG rotate normal normal2 interpolator median fwhm outliers cf H1 H2.
  assert (Hw : forall w psf, build_coadd_weight fwhm (cf_coadding_weight cf) w psf = Raise ValueError).
  { intros w psf. unfold build_coadd_weight.
    destruct (String.eqb_spec (cf_coadding_weight cf) "noise"); [contradiction|].
    destruct (String.eqb_spec (cf_coadding_weight cf) "noise-fwhm"); [contradiction|reflexivity]. }
  split; [exact Hw|]. intros mg srcs rng out rng' E.
  destruct (build_trace _ _ _ _ _ _ _ _ _ _ _ _ _ E) as (poss & _ & Hbad & Hgood).
  destruct (forallb snd poss) eqn:Ea.
  { rewrite forallb_forall in Ea. destruct Hbad as [-> _]; [now apply Forall_forall|]. split; reflexivity. }
  destruct Hgood as (vs & Ev & ->).
  { clear - Ea. induction poss as [|[s p] l IH]; [discriminate|]. cbn in Ea.
    destruct p; [right; apply IH; exact Ea|left; reflexivity]. }
  cbn [si_slices si_weights].
  assert (Hn : Forall (fun v => is_used v = false) vs).
  { clear - Ev Hw. revert rng vs rng' Ev.
    generalize (if cf_reject_outliers cf then reject_outliers outliers poss else poss) as l.
    induction l as [|[s p] l IH]; intros rng vs rng' E; cbn [process_all] in E.
    - apply Ok_inj in E. apply pair_equal_spec in E as [<- _]. constructor.
    - apply bind_ok in E as ([v r1] & Ev & E). apply bind_ok in E as ([vs1 r2] & Evs & E).
      apply Ok_inj in E. apply pair_equal_spec in E as [<- _]. constructor; [|eapply IH; exact Evs].
      destruct v as [u wt|]; [|reflexivity]. exfalso. clear Evs IH.
      unfold process_slice in Ev. apply bind_ok in Ev as (g & _ & E).
      apply bind_ok in E as (s' & _ & E). apply bind_ok in E as (e & _ & E). cbv zeta in E.
      destruct (_ || p); [discriminate|].
      apply bind_ok in E as ([[[im ns] pm] rng1] & _ & E).
      apply bind_ok in E as ([[[[[im2 ns2] w2] b2] pm2] skip] & _ & E).
      destruct skip; [discriminate|]. apply bind_ok in E as ([o x] & _ & E).
      destruct o as [[im3 ns3]|]; [|discriminate].
      apply bind_ok in E as (mk & _ & E).
      match type of E with (if ?b then _ else _) = _ => destruct b; [discriminate|] end.
      rewrite Hw in E. discriminate. }
  clear - Hn. induction Hn as [|v vs Hv _ [I1 I2]]; [split; reflexivity|].
  destruct v; [discriminate|]. split; [exact I1|exact I2].
Qed.

(** C40: the pixel mask of a used image, bit by bit, and what else is stored.
    [im], [ns] are the arrays after the noise interpolation, [im2] ... after the
    edge copy, [im3], [ns3] after the spline interpolation. *)
Theorem C40_pixel_mask_exact :
  forall (F : Type) (FO : FloatOps F) (RNG : Type)
         (rotate : F -> img F -> img F) (normal : RNG -> nat -> F -> list F * RNG)
         (normal2 : RNG -> Z -> Z -> (Z -> Z -> F) * RNG)
         (interpolator : list (Z * Z) -> list F -> result (Z * Z -> F)) (median : list F -> F)
         (measure_fwhm : img F -> F)
         (outliers : list (img F) -> list (img F) -> nat -> (Z -> Z -> F) * (Z -> Z -> F)),
  (forall r n x, length (fst (normal r n x)) = n) ->
  forall (cf : config) (map_gaia : option (se_slice -> result (img bool)))
         (srcs : list se_source) (rng : RNG) (out : slice_inputs) (rng' : RNG),
  (forall src s, In src srcs -> src_slice src = Ok s -> exists nr nc, shaped nr nc s) ->
  (forall f s g nr nc, map_gaia = Some f -> shaped nr nc s -> cut_out_of srcs s ->
     f s = Ok g -> shape_is nr nc g) ->
  build_slice_inputs rotate normal normal2 interpolator median measure_fwhm outliers cf map_gaia
    srcs rng = Ok (out, rng') ->
  forall u, In u (si_slices out) ->
  exists s r r' im ns im2 ns2 w2 b2 im3 ns3 nr nc,
    shaped nr nc s /\
    noise_filled normal2 cf s r im ns r' /\
    prepared cf s im ns im2 ns2 w2 b2 /\
    (exists x, interpolate (RNG := RNG) normal interpolator median cf im2 ns2 w2 b2
               = Ok (Some (im3, ns3), x)) /\
    interpolated_slice s im3 ns3 (u_pmask u) u /\
    shape_is nr nc (u_pmask u) /\
    forall row col, inb (u_pmask u) row col ->
      0 <= px (u_pmask u) row col /\
      forall k, 0 <= k ->
        (Z.testbit (px (u_pmask u) row col) k = true <->
         (k = 28 /\ flagged (cf_noise_flags cf) (px (sl_bmask s) row col)) \/
         (k = 27 /\
          ((cf_copy_masked_edges cf = true /\
              (unequal (px im row col) (px im2 row col) \/ noise_changed ns ns2 row col)) \/
           unequal (px im3 row col) (px im2 row col) \/ noise_changed ns2 ns3 row col \/
           fltb (px w2 row col) fzero = true \/
           flagged (cf_spline_flags cf) (px b2 row col)))).
Proof.
  intros F FO RNG rotate normal normal2 interpolator median fwhm outliers Hn cf mg srcs rng out rng'
    Hs Hg E u Hu.
  destruct (build_verdicts rotate normal normal2 interpolator median fwhm outliers
              cf mg srcs rng out rng' Hn Hs Hg E) as (vs & -> & Hv).
  cbn [si_slices] in Hu. unfold used_of in Hu. apply in_flat_map in Hu as (v & Hin & Hu).
  destruct v as [u' wt|]; [|destruct Hu]. destruct Hu as [->|[]].
  destruct (Hv _ Hin) as (src & s0 & s & g & s' & r & r' & nr & nc & _ & _ & _ & _ & Hs' & _ & _ & _ & Hju).
  inversion Hju as [| | | |im ns r1 im2 ns2 w2 b2 im3 ns3 pm u0 wt0 Hok Hfill Hprep Hnfe Hint Hpm Hfr Hint2 Hwt]; subst.
  pose proof Hint2 as [_ Ipm _ _ _ _ _]. subst pm. destruct Hpm as [[P1 P2] Hpm].
  exists s', r, r', im, ns, im2, ns2, w2, b2, im3, ns3, nr, nc.
  do 5 (split; [assumption|]).
  destruct Hs' as (_ & _ & _ & _ & [B1 B2] & _).
  split; [split; lia|]. exact Hpm.
Qed.

(** C40, doubles: in a used image a pixel whose mask is zero still compares
    equal to the pixel that was read, in the image and in every noise field. *)
Theorem C40_unmarked_pixels_unchanged_f64 :
  forall (RNG : Type)
         (rotate : f64 -> img f64 -> img f64) (normal : RNG -> nat -> f64 -> list f64 * RNG)
         (normal2 : RNG -> Z -> Z -> (Z -> Z -> f64) * RNG)
         (interpolator : list (Z * Z) -> list f64 -> result (Z * Z -> f64))
         (median : list f64 -> f64) (measure_fwhm : img f64 -> f64)
         (outliers : list (img f64) -> list (img f64) -> nat -> (Z -> Z -> f64) * (Z -> Z -> f64)),
  (forall r n x, length (fst (normal r n x)) = n) ->
  forall (cf : config) (map_gaia : option (se_slice -> result (img bool)))
         (srcs : list se_source) (rng : RNG) (out : slice_inputs) (rng' : RNG),
  cf_reject_outliers cf = false ->
  (forall src s, In src srcs -> src_slice src = Ok s -> exists nr nc, shaped nr nc s) ->
  (forall f s g nr nc, map_gaia = Some f -> shaped nr nc s -> cut_out_of srcs s ->
     f s = Ok g -> shape_is nr nc g) ->
  build_slice_inputs rotate normal normal2 interpolator median measure_fwhm outliers cf map_gaia
    srcs rng = Ok (out, rng') ->
  forall u, In u (si_slices out) ->
  exists src s0, In src srcs /\ src_slice src = Ok s0 /\
    forall row col, inb (sl_image s0) row col -> px (u_pmask u) row col = 0 ->
      feqb (px (sl_image (u_slice u)) row col) (px (sl_image s0) row col) = true /\
      forall k a b, nth_error (sl_noises s0) k = Some a ->
        nth_error (sl_noises (u_slice u)) k = Some b ->
        feqb (px b row col) (px a row col) = true.
Proof.
  intros RNG rotate normal normal2 interpolator median fwhm outliers Hn cf mg srcs rng out rng'
    Hrej Hs Hg E u Hu.
  destruct (build_verdicts rotate normal normal2 interpolator median fwhm outliers
              cf mg srcs rng out rng' Hn Hs Hg E) as (vs & -> & Hv).
  cbn [si_slices] in Hu. unfold used_of in Hu. apply in_flat_map in Hu as (v & Hin & Hu).
  destruct v as [u' wt|]; [|destruct Hu]. destruct Hu as [->|[]].
  destruct (Hv _ Hin) as (src & s0 & s & g & s' & r & r' & nr & nc & Hsrc & Es & _ & _ & Hs' & Heq & _ & Hsym & Hju).
  rewrite (Heq Hrej) in Hsym.
  exists src, s0. apply filter_In in Hsrc as [Hsrc _]. split; [assumption|]. split; [assumption|].
  intros row col Hi Hz.
  assert (Him : sl_image s' = sl_image s0 /\ sl_noises s' = sl_noises s0).
  { rewrite (symmetrize_slice_fields _ _ _ _ _ Hsym). split; reflexivity. }
  destruct Him as [Him Hnn]. rewrite <- Him, <- Hnn. rewrite <- Him in Hi.
  exact (unmarked_unchanged normal normal2 interpolator median fwhm f64_eqb_sym f64_eqb_trans
           cf g s' _ r u wt r' nr nc Hs' Hju row col Hi Hz).
Qed.

(** ** Concrete selections *)
Definition sel_rotate : f64 -> img f64 -> img f64 := fun _ a => a.
Definition sel_normal : nat -> nat -> f64 -> list f64 * nat := fun r n s => (repeat s n, S r).
Definition sel_normal2 : nat -> Z -> Z -> (Z -> Z -> f64) * nat :=
  fun r _ _ => (fun _ _ => f64_ofZ (Z.of_nat r), S r).
Definition sel_interp : list (Z * Z) -> list f64 -> result (Z * Z -> f64) :=
  fun _ vs => Ok (fun _ => hd (f64_ofZ 0) vs).
Definition sel_median : list f64 -> f64 := fun l => hd (f64_ofZ 0) l.
Definition sel_fwhm : img f64 -> f64 := fun _ => f64_ofZ 2.
Definition sel_outliers : list (img f64) -> list (img f64) -> nat -> (Z -> Z -> f64) * (Z -> Z -> f64) :=
  fun ims ws k => (px (nth k ims (full 3 3 (f64_ofZ 0))), px (nth k ws (full 3 3 (f64_ofZ 0)))).
Definition sel_build (cf : config) (srcs : list (se_source (F := f64))) :=
  build_slice_inputs sel_rotate sel_normal sel_normal2 sel_interp sel_median sel_fwhm sel_outliers
    cf None srcs 1%nat.

(** 3 x 3 pixels of value 5, weight [w], mask [b] in the middle. *)
Definition sel_slice (id : Z) (w : Z -> Z -> Z) (b : Z -> Z -> Z) : se_slice (F := f64) :=
  mkslice id 10 20 3 (full 3 3 (f64_ofZ 5)) (mkimg 3 3 (fun r c => f64_ofZ (w r c)))
    (mkimg 3 3 b) [full 3 3 (f64_ofZ 7)] (full 3 3 (f64_ofZ 1)) 100 200 3.
Definition middle (v : Z) (r c : Z) : Z := if (r =? 1) && (c =? 1) then v else 0.
Definition sel_cf (copy : bool) : config (F := f64) :=
  mkconfig false SymOff "noise" copy 1 2 4 (fdiv (f64_ofZ 1) (f64_ofZ 2)).

(** Five images: used (with a noise-filled pixel), forbidden flag, bad PSF, not
    a candidate, used. *)
Definition sel_sources : list (se_source (F := f64)) :=
  [ mksource 0 true true (Ok (sel_slice 11 (fun _ _ => 2) (middle 1))) false;
    mksource 0 true true (Ok (sel_slice 12 (fun _ _ => 2) (middle 4))) false;
    mksource 0 true true (Ok (sel_slice 13 (fun _ _ => 2) (middle 0))) true;
    mksource 8 true true (Ok (sel_slice 14 (fun _ _ => 2) (middle 0))) false;
    mksource 0 true true (Ok (sel_slice 15 (fun _ _ => 6) (middle 2))) false ].

Definition sel_rows (cf : config) (srcs : list (se_source (F := f64))) :=
  match sel_build cf srcs with
  | Ok (out, _) => map (fun r => (er_image_id r, er_flags r, er_weight r))
      (make_epochs_info 3 (si_weights out) (si_slices out) (si_not_used out) (si_flags out))
  | Raise _ => []
  end.

Example C36_example :
  sel_rows (sel_cf false) sel_sources =
  [(11, 0, fdiv (f64_ofZ 1) (f64_ofZ 4)); (15, 0, fdiv (f64_ofZ 3) (f64_ofZ 4));
   (12, 2, fzero); (13, 32, fzero)].
Proof. vm_compute. reflexivity. Qed.

Definition sel_pmask (cf : config) (srcs : list (se_source (F := f64))) : list (list Z) :=
  match sel_build cf srcs with
  | Ok (out, _) => map (fun u => ravel (u_pmask u)) (si_slices out)
  | Raise _ => []
  end.

Example C40_example :
  sel_pmask (sel_cf false) sel_sources =
  [ [0; 0; 0; 0; 2 ^ 28; 0; 0; 0; 0]; [0; 0; 0; 0; 2 ^ 27; 0; 0; 0; 0] ].
Proof. vm_compute. reflexivity. Qed.

(** C40: an interpolated pixel without weight whose value does not change is not
    marked, although its weight required interpolation. *)
Definition sel_unmarked : list (se_source (F := f64)) :=
  [ mksource 0 true true (Ok (sel_slice 11 (fun r c => 2 - middle 2 r c) (middle 0))) false ].

Theorem C40_zero_weight_unchanged_pixel_refuted :
  ~ (forall out rng' u row col,
       sel_build (sel_cf false) sel_unmarked = Ok (out, rng') ->
       In u (si_slices out) -> inb (sl_weight (u_slice u)) row col ->
       fleb (px (sl_weight (u_slice u)) row col) fzero = true ->
       px (u_pmask u) row col <> 0).
Proof.
  intros H.
  assert (Hx : match sel_build (sel_cf false) sel_unmarked with
               | Ok (out, _) => match si_slices out with
                  | [u] => (nrows (sl_weight (u_slice u)) =? 3) && (ncols (sl_weight (u_slice u)) =? 3) &&
                     fleb (px (sl_weight (u_slice u)) 1 1) (fzero (F := f64)) && (px (u_pmask u) 1 1 =? 0)
                  | _ => false end
               | Raise _ => false end = true) by (vm_compute; reflexivity).
  destruct (sel_build (sel_cf false) sel_unmarked) as [[out rng']|] eqn:E; [|discriminate].
  destruct (si_slices out) as [|u [|u2 l]] eqn:Eu; try discriminate.
  rewrite !andb_true_iff, !Z.eqb_eq in Hx. destruct Hx as [[[H1 H2] H3] H4].
  apply (H out rng' u 1 1 eq_refl); [rewrite Eu; now left| |exact H3|exact H4].
  unfold inb. lia.
Qed.

(** C40: neither is a pixel of a flagged edge that is overwritten by an equal
    value: the mask copied along with it is clean. *)
Definition sel_edge : list (se_source (F := f64)) :=
  [ mksource 0 true true (Ok (sel_slice 11 (fun _ _ => 2) (fun r _ => if r =? 0 then 2 else 0))) false ].

Theorem C40_copied_edge_pixel_refuted :
  ~ (forall out rng' u row col,
       sel_build (sel_cf true) sel_edge = Ok (out, rng') ->
       In u (si_slices out) -> inb (sl_bmask (u_slice u)) row col ->
       flagged (cf_spline_flags (sel_cf true)) (px (sl_bmask (u_slice u)) row col) ->
       px (u_pmask u) row col <> 0).
Proof.
  intros H.
  assert (Hx : match sel_build (sel_cf true) sel_edge with
               | Ok (out, _) => match si_slices out with
                  | [u] => (nrows (sl_bmask (u_slice u)) =? 3) && (ncols (sl_bmask (u_slice u)) =? 3) &&
                     (px (sl_bmask (u_slice u)) 0 1 =? 2) && (px (u_pmask u) 0 1 =? 0)
                  | _ => false end
               | Raise _ => false end = true) by (vm_compute; reflexivity).
  destruct (sel_build (sel_cf true) sel_edge) as [[out rng']|] eqn:E; [|discriminate].
  destruct (si_slices out) as [|u [|u2 l]] eqn:Eu; try discriminate.
  rewrite !andb_true_iff, !Z.eqb_eq in Hx. destruct Hx as [[[H1 H2] H3] H4].
  apply (H out rng' u 0 1 eq_refl); [rewrite Eu; now left| | |exact H4].
  - unfold inb. lia.
  - exists 1. rewrite H3. split; [lia|]. split; reflexivity.
Qed.

(** The hypotheses of the theorems hold for these sources. *)
Example selection_hypotheses :
  (forall r n x, length (fst (sel_normal r n x)) = n) /\
  (forall ps vs, exists f, sel_interp ps vs = Ok f) /\
  (forall src s, In src sel_sources -> src_slice src = Ok s -> exists nr nc, shaped nr nc s) /\
  Exists (fun src => src_psf_flag src = false) (filter candidate sel_sources) /\
  fleb (cf_max_masked_fraction (sel_cf false)) fone = true.
Proof.
  split; [intros; apply repeat_length|]. split; [intros; eexists; reflexivity|].
  split; [|split; [left; reflexivity|reflexivity]].
  intros src s Hin Es. exists 3, 3.
  assert (Hs : forall id w b, shaped 3 3 (sel_slice id w b)).
  { intros id w b. repeat split; cbn; try lia. repeat constructor. }
  cbn in Hin. repeat (destruct Hin as [<-|Hin]; [cbn in Es; injection Es as <-; apply Hs|]).
  destruct Hin.
Qed.

(** C38 on a list that is not trivial: weights 2 and 6 give 1/4 and 3/4 (see
    [C36_example] for the same numbers in doubles). *)
Example C38_example : normalise [2; 6]%R = [1 / 4; 3 / 4]%R.
Proof. unfold normalise, fsum, fzero. cbn. f_equal; [lra|]. f_equal. lra. Qed.

(** The weight maps of [sel_sources] are ordinary ones. *)
Definition two_or_six (x : f64) : bool :=
  match x with
  | S754_finite false m e => Pos.eqb m 4503599627370496 && (e =? -51) || Pos.eqb m 6755399441055744 && (e =? -50)
  | _ => false
  end.

Lemma two_or_six_is x : two_or_six x = true -> f64_is x 2%R \/ f64_is x 6%R.
Proof.
  destruct x as [s|s| |[|] m e]; try discriminate. cbn [two_or_six].
  rewrite orb_true_iff, !andb_true_iff, !Pos.eqb_eq, !Z.eqb_eq. intros [[-> ->]|[-> ->]].
  - left. apply (f64_ofZ_is 2). cbn. lia.
  - right. apply (f64_ofZ_is 6). cbn. lia.
Qed.

Lemma two_or_six_map (w : img f64) : forallb two_or_six (ravel w) = true -> ordinary_weight_map w.
Proof.
  intros Hx r c Hin. rewrite forallb_forall in Hx.
  assert (Hp : two_or_six (px w r c) = true).
  { apply Hx. unfold ravel. apply in_map_iff. exists (r, c). split; [reflexivity|]. now apply In_allpix. }
  assert (L : (bpow radix2 (-150) <= bpow radix2 0)%R) by (apply bpow_le; lia).
  assert (U : (bpow radix2 4 <= bpow radix2 150)%R) by (apply bpow_le; lia).
  change (bpow radix2 0) with 1%R in L. replace (bpow radix2 4) with 16%R in U by (cbn; lra).
  destruct (two_or_six_is _ Hp) as [H|H]; [exists 2%R|exists 6%R]; (split; [exact H|]); right; lra.
Qed.

Example C38_example_double :
  exists out rng', sel_build (sel_cf false) sel_sources = Ok (out, rng') /\ length (si_slices out) = 2%nat /\
    ordinary_inputs sel_fwhm "noise" (si_slices out).
Proof.
  assert (Hx : match sel_build (sel_cf false) sel_sources with
               | Ok (out, _) => (length (si_slices out) =? 2)%nat && forallb (fun u =>
                    forallb two_or_six (ravel (sl_weight (u_slice u)))) (si_slices out)
               | Raise _ => false end = true) by (vm_compute; reflexivity).
  destruct (sel_build (sel_cf false) sel_sources) as [[out rng']|] eqn:E; [|discriminate].
  apply andb_true_iff in Hx as [Hl Hx]. apply Nat.eqb_eq in Hl. rewrite forallb_forall in Hx.
  exists out, rng'. split; [reflexivity|]. split; [exact Hl|].
  split; [|split; [discriminate|rewrite Hl; cbn; lia]].
  intros u Hu. apply two_or_six_map. apply Hx, Hu.
Qed.

Print Assumptions C36_every_epoch_recorded_once.
Print Assumptions C36_image_ids_recorded.
Print Assumptions C37_verdicts_exact.
Print Assumptions C37_used_images_acceptable.
Print Assumptions C37_masks_symmetrised_with_angles.
Print Assumptions C37_masks_symmetrised_once.
Print Assumptions C37_selection_does_not_fail.
Print Assumptions C38_weights_normalised.
Print Assumptions C38_weights_normalised_double.
Print Assumptions C38_unknown_weighting_fails.
Print Assumptions C40_pixel_mask_exact.
Print Assumptions C40_unmarked_pixels_unchanged_f64.
Print Assumptions C40_zero_weight_unchanged_pixel_refuted.
Print Assumptions C40_copied_edge_pixel_refuted.
