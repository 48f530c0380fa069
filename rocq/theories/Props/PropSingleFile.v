(** C92: the file of a run on images of single precision. *)
From Coq Require Import ZArith List Bool String Lia Reals Lra Permutation.
From Flocq Require Import Core BinarySingleNaN.
From Coq Require Import List.
From Verif Require Import Lib.Base Lib.PyStr Lib.Floats Lib.Float32 Model.SliceRange Model.Jobs Model.Gaia
  Model.ObjectData Model.PsfImage Model.SliceInputs Model.Coadd Model.Writer Model.Sched Model.SingleSlice
  Model.CoaddF4 Model.SliceF4
  Spec.FloatSpec Spec.CoaddSpec Spec.Float32Spec Spec.GaiaSpec Spec.WriterSpec Spec.RunSpec Spec.SliceInputsSpec Spec.SingleSliceSpec
  Proofs.BaseFacts Proofs.F64Facts Proofs.SliceInputsProofs Proofs.CoaddProofs Proofs.CoaddF64 Proofs.CoaddF32 Proofs.VarianceF32
  Proofs.SingleSliceProofs Proofs.SliceF32 Props.PropRun Props.PropSingleSlice Props.PropSingle.
Import ListNotations.
Open Scope list_scope.
Open Scope Z_scope.

(** C92: with images of doubles it is the slice of C72. *)
Theorem C92_double_slices :
  forall (F : Type) (FO : FloatOps F) (RNG : Type) (ext : @externals F RNG) sc coadding_weight ti objs n_extra ss it,
  coadd_single_slice_as (fun x => x) (fun l => fdiv fone (variance l)) ext (select_double ext sc coadding_weight)
    sc ti objs n_extra ss it
  = coadd_single_slice ext sc coadding_weight ti objs n_extra ss it.
Proof. intros. apply slice_as_double. Qed.

(** C92: images of any dtype and any selection of images: what a completed run leaves in
    the file at the place of each slice that was asked for. *)
Theorem C92_file_contents :
  forall (F : Type) (FO : FloatOps F) (RNG : Type) (store : F -> F) (inverse_variance : list F -> F)
    (ext : @externals F RNG) select sc ti i2s jac central buffer width psf_box offset objs n_extra,
  0 <= n_extra ->
  build_object_data i2s jac central buffer width psf_box offset = Ok objs ->
  forall zero cast isneg nsrc seed obj0 rng init randint arg h l o,
  let box := central + 2 * buffer in
  let num := Z.of_nat (length objs) in
  forward arg -> valid_how h -> slices_of arg num = Ok l ->
  run_completes pixel (list epoch_row) zero cast isneg box psf_box n_extra num nsrc seed obj0
    rng init randint
    (fun ss it => coadd_single_slice_as store inverse_variance ext select sc ti objs n_extra ss it)
    arg h o ->
  let '(seeds, ss) := all_seeds rng init randint seed num nsrc n_extra in
  forall i, In i l ->
  exists ob kcol krow ra_psf dec_psf mask inputs,
    nth_error objs (Z.to_nat i) = Some ob /\ ob_id ob = i /\
    psf_pixel ext ob kcol krow /\ x_image2sky ext (fofZ kcol) (fofZ krow) = Ok (ra_psf, dec_psf) /\
    star_mask ext sc ti ob = Ok mask /\
    select mask ss (nth (Z.to_nat i) seeds 0) ob ra_psf dec_psf = Ok inputs /\
    let weights := si_weights inputs in
    In (make_epochs_info i weights (si_slices inputs) (si_not_used inputs) (si_flags inputs))
       (o_epochs pixel _ o) /\
    o_nepoch (o_obj pixel _ o i) = Z.of_nat (length weights) /\
    (weights = [] -> o_nepoch_eff (o_obj pixel _ o i) = fzero /\
       forall e k p, o_fits pixel _ o e = Some k ->
         in_region i (if String.eqb e "psf" then psf_box ^ 2 else box ^ 2) p -> dat pixel k p = zero) /\
    (weights <> [] ->
     exists shape datas psf,
       ti_image_shape ti = Some shape /\
       Forall2 (resampled_to ext ti shape ob kcol krow) (si_slices inputs) datas /\
       length datas = length weights /\
       holds o "image_cutouts" i box (fun y x => cast "image_cutouts"%string
         (PF (stored_over store datas weights (fun d => px (rs_image d) y x)))) /\
       holds o "mfrac_cutouts" i box (fun y x => cast "mfrac_cutouts"%string
         (PF (stored_over store datas weights (fun d => unit_fraction (px (rs_interp_frac d) y x))))) /\
       holds o "bmask_cutouts" i box (fun y x => cast "bmask_cutouts"%string
         (PI (union_over datas (fun d => px (rs_pmask d) y x)))) /\
       holds o "ormask_cutouts" i box (fun y x => cast "ormask_cutouts"%string
         (PI (union_over datas (fun d => px (rs_bmask d) y x)))) /\
       (forall k, Z.of_nat k <= n_extra ->
          holds o (noise_name k) i box (fun y x => cast "noise_cutouts"%string
            (PF (stored_over store datas weights (noise_at k y x))))) /\
       holds o "weight_cutouts" i box (fun y x => cast "weight_cutouts"%string
         (PF (store (inverse_variance (map (fun yx => stored_over store datas weights (noise_at 0 (fst yx) (snd yx)))
                                     (allpix box box)))))) /\
       nrows psf = psf_box /\ ncols psf = psf_box /\
       (forall y x, px psf y x = stored_over store datas weights (fun d => finite_part (px (rs_psf d) y x))) /\
       holds o "psf" i psf_box (fun y x => cast "psf"%string (PF (px psf y x))) /\
       o_psf_sigma (o_obj pixel _ o i) = x_measure_fwhm ext psf /\
       o_nepoch_eff (o_obj pixel _ o i) = fdiv (fsum weights) (running_max weights)).
Proof.
  intros F FO RNG store inv ext select sc ti i2s jac central buffer width psf_box offset objs n_extra Hx Hb
    zero cast isneg nsrc seed obj0 rng init randint arg h l o box num Hf Vh Hl Hrun.
  assert (Hlab : labelled pixel (list epoch_row) box psf_box n_extra num
    (fun ss it => coadd_single_slice_as store inv ext select sc ti objs n_extra ss it)).
  { apply slice_as_labelled; [exact Hx|]. intros ob Hin. apply In_nth_error in Hin as [k Hk].
    exact (proj2 (build_sizes i2s jac _ _ _ _ _ objs Hb k ob Hk)). }
  pose proof (C34_run_contents F FO pixel (list epoch_row) zero cast isneg box psf_box n_extra num nsrc seed obj0
    rng init randint _ Hx (Nat2Z.is_nonneg _) Hlab arg h l o Hf Vh Hl Hrun) as HC.
  destruct (all_seeds rng init randint seed num nsrc n_extra) as [seeds ss].
  destruct HC as (HC & _). intros i Hi. destruct (HC i Hi) as (Bi & r & Ew & Ri & Hs).
  destruct (slice_as_inv store inv ext select sc ti objs n_extra ss i _ r (proj1 Bi) Ew)
    as (ob & kcol & krow & ra & de & mask & inputs & Eo & Hp & Hsky & Hm & Hsel & _ & Rw & Re & Hd).
  destruct (build_sizes i2s jac _ _ _ _ _ objs Hb _ ob Eo) as (Oid & Obox & Opsf).
  rewrite Z2Nat.id in Oid by lia. rewrite Oid in Re, Hd.
  exists ob, kcol, krow, ra, de, mask, inputs.
  split; [exact Eo|]. split; [exact Oid|]. split; [exact Hp|]. split; [exact Hsky|]. split; [exact Hm|].
  split; [exact Hsel|]. cbv zeta. unfold stored in Hs. rewrite Ri in Hs.
  destruct Hs as (S1 & S2 & S3). rewrite Re in S1. split; [exact S1|].
  unfold has_data in S2, S3. rewrite Rw in S2, S3.
  destruct (si_weights inputs) as [|w0 ws0] eqn:EW.
  { destruct (S3 ltac:(intros X; apply X; reflexivity)) as (Z1 & Z2 & Z3 & _).
    split; [exact Z2|]. split; [intros _; split; [exact Z3|exact Z1]|]. intros X. exfalso. apply X. reflexivity. }
  rewrite <- EW in *. assert (NE : si_weights inputs <> []) by (rewrite EW; discriminate).
  destruct (S2 NE) as (S4 & _ & S5 & S7 & S6 & _). clear S2 S3.
  split; [exact S5|]. split; [intros X; contradiction|]. intros _.
  destruct (Hd NE) as (shape & co & w & datas & Esh & Ec & Er).
  rewrite Obox, Opsf in Ec. fold box in Ec.
  destruct (coadd_as_spec _ _ _ _ _ _ _ _ _ _ _ Ec) as
    (LL & _ & FD & A1 & A2 & A3 & A4 & A5 & A6 & A7 & A8 & A9 & A10 & A11 & A12 & A13 & A14 & A15 & A16).
  exists shape, datas, (co_psf co). split; [exact Esh|]. split.
  { clear - FD Obox Opsf. induction FD as [|u d us ds Hu _ IH]; constructor; [|exact IH].
    unfold resampled_to. rewrite Obox, Opsf. exact Hu. }
  split. { rewrite <- LL. symmetry. exact (F2_len _ _ _ FD). }
  rewrite Er in S6. cbn [r_psf_sigma] in S6.
  assert (HO : forall e info a g, belongs pixel (list epoch_row) r e info a ->
    nrows a = box -> ncols a = box -> String.eqb e "psf" = false ->
    (forall y x, px a y x = g y x) -> holds o e i box (fun y x => cast info (g y x))).
  { intros e info a g Ha Nr Nc Np Hg. destruct (S4 e info a Ha) as (k & Ek & Hk). rewrite Np, Nc in Hk.
    exists k. split; [exact Ek|]. intros y x Hy Hxx. rewrite Hk; [rewrite Hg; reflexivity|].
    split; lia. }
  assert (UB : forall (f : @resampled F -> img Z) (m : img Z) y x,
     (forall k, Z.testbit (px m y x) k = true <-> exists d, In d datas /\ Z.testbit (px (f d) y x) k = true) ->
     px m y x = union_over datas (fun d => px (f d) y x)).
  { intros f m y x H. apply Z.bits_inj'. intros k _. unfold union_over.
    assert (U : Z.testbit (fold_right Z.lor 0 (map (fun d => px (f d) y x) datas)) k = true <->
                exists d, In d datas /\ Z.testbit (px (f d) y x) k = true).
    { clear. induction datas as [|d ds IH]; cbn [map fold_right].
      - rewrite Z.bits_0. split; [discriminate|]. intros (d & [] & _).
      - rewrite Z.lor_spec, orb_true_iff, IH. split.
        + intros [A|(d' & I & A)]; [exists d; split; [left; reflexivity|exact A]|exists d'; split; [right; exact I|exact A]].
        + intros (d' & [<-|I] & A); [left; exact A|right; exists d'; auto]. }
    specialize (H k). rewrite <- U in H.
    destruct (Z.testbit (px m y x) k), (Z.testbit (fold_right _ _ _) k); try reflexivity;
      [symmetry|]; apply H; reflexivity. }
  assert (NZ : forall k, (k < S (Z.to_nat n_extra))%nat -> exists a,
     nth_error (co_noises co) k = Some a /\ nrows a = box /\ ncols a = box /\
     forall y x, px a y x = stored_over store datas (si_weights inputs) (noise_at k y x)).
  { intros k Hk. destruct (A16 0 0) as (_ & _ & _ & _ & _ & A).
    destruct (A k Hk) as (a & ds & Ea & Na & Nc & _). exists a. split; [exact Ea|]. split; [exact Na|].
    split; [exact Nc|]. intros y x. destruct (A16 y x) as (_ & _ & _ & _ & _ & A').
    destruct (A' k Hk) as (a' & ds' & Ea' & _ & _ & Fds & Px).
    rewrite Ea in Ea'. injection Ea' as <-. rewrite Px. unfold stored_over. do 2 f_equal.
    clear - Fds. induction Fds as [|d n l m Hn _ IH]; [reflexivity|]. cbn [map]. rewrite IH. f_equal.
    unfold noise_at. f_equal. symmetry. apply nth_error_nth with (1 := Hn). }
  split. { apply HO with (a := imap PF (co_image co)); try assumption; try reflexivity; [rewrite Er; constructor|].
    intros y x. cbn [imap px]. destruct (A16 y x) as (-> & _). reflexivity. }
  split. { apply HO with (a := imap PF (co_mfrac co)); try assumption; try reflexivity; [rewrite Er; constructor|].
    intros y x. cbn [imap px]. destruct (A16 y x) as (_ & _ & -> & _). reflexivity. }
  split. { apply HO with (a := imap PI (co_bmask co)); try assumption; try reflexivity; [rewrite Er; constructor|].
    intros y x. cbn [imap px]. destruct (A16 y x) as (_ & _ & _ & A & _). rewrite (UB rs_pmask _ _ _ A). reflexivity. }
  split. { apply HO with (a := imap PI (co_ormask co)); try assumption; try reflexivity; [rewrite Er; constructor|].
    intros y x. cbn [imap px]. destruct (A16 y x) as (_ & _ & _ & _ & A & _). rewrite (UB rs_bmask _ _ _ A). reflexivity. }
  split. { intros k Hk. destruct (NZ k ltac:(lia)) as (a & Ea & Na & Nc & Pa).
    assert (En : nth_error (r_noises pixel (list epoch_row) r) k = Some (imap PF a)).
    { rewrite Er. cbn [r_noises]. rewrite nth_error_map, Ea. reflexivity. }
    apply HO with (a := imap PF a); try assumption.
    - destruct k as [|k]; [apply b_noise; exact En|apply b_extra; [lia|exact En]].
    - destruct k; reflexivity.
    - intros y x. cbn [imap px]. rewrite Pa. reflexivity. }
  split. { apply HO with (a := imap PF w); try assumption; try reflexivity; [rewrite Er; constructor|].
    intros y x. cbn [imap px]. destruct A15 as (n0 & En & ->).
    destruct (NZ 0%nat ltac:(lia)) as (a & Ea & Na & Nc & Pa). rewrite En in Ea. injection Ea as <-.
    do 3 f_equal. unfold ravel. rewrite Na, Nc. apply map_ext. intros [u v]. apply Pa. }
  split; [exact A7|]. split; [exact A8|].
  split. { intros y x. destruct (A16 y x) as (_ & -> & _). reflexivity. }
  split; [|split; [exact S6|exact S7]].
  destruct (S4 "psf"%string "psf"%string (imap PF (co_psf co))) as (k & Ek & Hk); [rewrite Er; constructor|].
  cbn [imap ncols px] in Hk. rewrite A8 in Hk. exists k. split; [exact Ek|]. intros y x Hy Hxx.
  apply Hk. split; cbn [imap nrows ncols]; [rewrite A7|rewrite A8]; lia.
Qed.

Lemma to_i4_is z : - 2 ^ 31 <= to_i4 z < 2 ^ 31 /\ exists k, z = to_i4 z + k * 2 ^ 32.
Proof.
  unfold to_i4. pose proof (Z.mod_pos_bound (z + 2 ^ 31) (2 ^ 32) ltac:(lia)) as M.
  pose proof (Z.div_mod (z + 2 ^ 31) (2 ^ 32) ltac:(lia)) as D. split; [lia|].
  exists ((z + 2 ^ 31) / 2 ^ 32). lia.
Qed.

Lemma stored_twice {D : Type} (datas : list D) weights f :
  to_single (stored_over to_single datas weights f) = stored_over to_single datas weights f.
Proof.
  unfold stored_over, stored_sum.
  assert (G : forall l a, to_single a = a ->
    to_single (fold_left (fun acc p => to_single (fadd acc (fmul (fst p) (snd p)))) l a)
    = fold_left (fun acc p => to_single (fadd acc (fmul (fst p) (snd p)))) l a).
  { intros l. induction l as [|p l IH]; intros a Ha; cbn [fold_left]; [exact Ha|]. apply IH.
    exact (proj2 (proj2 (C92_written "psf"%string ltac:(cbn; tauto))) _). }
  apply G. reflexivity.
Qed.

(** C92: a completed run on images of single precision, for any way in which images are
    selected. The file holds single precision numbers near the weighted means of the images
    that were selected, the union of their masks, and a weight map that is one over the
    variance of the noise image in the file. *)
Theorem C92_file_single :
  forall (RNG : Type) (ext : @externals f64 RNG) select sc ti
    i2s jac central buffer width psf_box offset objs n_extra,
  0 <= n_extra ->
  build_object_data i2s jac central buffer width psf_box offset = Ok objs ->
  forall zero nsrc seed obj0 rng init randint arg h l o,
  let box := central + 2 * buffer in
  let num := Z.of_nat (length objs) in
  forward arg -> valid_how h -> slices_of arg num = Ok l ->
  run_completes pixel (list epoch_row) zero store_as negative box psf_box n_extra num nsrc seed obj0
    rng init randint (fun ss it => coadd_single_slice_f4 ext select sc ti objs n_extra ss it) arg h o ->
  let '(seeds, ss) := all_seeds rng init randint seed num nsrc n_extra in
  forall i, In i l ->
  exists ob kcol krow ra_psf dec_psf mask inputs,
    nth_error objs (Z.to_nat i) = Some ob /\ ob_id ob = i /\
    psf_pixel ext ob kcol krow /\ x_image2sky ext (fofZ kcol) (fofZ krow) = Ok (ra_psf, dec_psf) /\
    star_mask ext sc ti ob = Ok mask /\
    select mask ss (nth (Z.to_nat i) seeds 0) ob ra_psf dec_psf = Ok inputs /\
    let weights := si_weights inputs in
    o_nepoch (o_obj pixel _ o i) = Z.of_nat (length weights) /\
    forall ws, weights <> [] -> ordinary_weights weights ws -> Z.of_nat (length ws) <= 2 ^ 20 ->
    exists shape datas,
      ti_image_shape ti = Some shape /\
      Forall2 (resampled_to ext ti shape ob kcol krow) (si_slices inputs) datas /\
      holds_mean_single o "image_cutouts" i box ws (fun y x => map (fun d => px (rs_image d) y x) datas) /\
      holds_mean_single o "mfrac_cutouts" i box ws
        (fun y x => map (fun d => unit_fraction (px (rs_interp_frac d) y x)) datas) /\
      holds_mean_single o "psf" i psf_box ws (fun y x => map (fun d => finite_part (px (rs_psf d) y x)) datas) /\
      (forall k, Z.of_nat k <= n_extra ->
         holds_mean_single o (noise_name k) i box ws (fun y x => map (noise_at k y x) datas)) /\
      holds_mask_single o "bmask_cutouts" i box (fun y x => union_over datas (fun d => px (rs_pmask d) y x)) /\
      holds_mask_single o "ormask_cutouts" i box (fun y x => union_over datas (fun d => px (rs_bmask d) y x)) /\
      exists noise w,
        holds o "noise_cutouts" i box (fun y x => PF (noise y x)) /\
        holds o "weight_cutouts" i box (fun _ _ => PF w) /\
        inverse_spread_single (map (fun yx => noise (fst yx) (snd yx)) (allpix box box)) w.
Proof.
  intros RNG ext select sc ti i2s jac central buffer width psf_box offset objs n_extra Hx Hb
    zero nsrc seed obj0 rng init randint arg h l o box num Hf Vh Hl Hrun.
  pose proof (C92_file_contents f64 F64Ops RNG to_single inverse_variance_single ext select sc ti i2s jac central buffer
    width psf_box offset objs n_extra Hx Hb zero store_as negative nsrc seed obj0 rng init randint arg h l o Hf Vh Hl Hrun) as HC.
  fold box in HC. fold num in HC.
  destruct (all_seeds rng init randint seed num nsrc n_extra) as [seeds ss].
  intros i Hi. destruct (HC i Hi) as (ob & kcol & krow & ra & de & mask & inputs & E1 & E2 & E3 & E4 & E5 & E6 & HC').
  clear HC. cbv zeta in HC'. destruct HC' as (_ & E7 & _ & HC).
  exists ob, kcol, krow, ra, de, mask, inputs. do 6 (split; [assumption|]). cbv zeta. split; [exact E7|].
  intros ws NE (Hw & Hr & _) Hn.
  destruct (HC NE) as (shape & datas & psf & Esh & FD & Ld & H1 & H2 & H3 & H4 & H5 & H6 & _ & _ & Hp & H7 & _).
  exists shape, datas. split; [exact Esh|]. split; [exact FD|].
  pose proof (F2_len _ _ _ Hw) as Lw.
  assert (Hws : ws <> []) by (intros ->; destruct (si_weights inputs); [congruence|discriminate]).
  assert (K : forall f, averages_single ws (map f datas) (stored_over to_single datas (si_weights inputs) f)).
  { intros f xs Hxs HB.
    destruct (mean_of_singles (si_weights inputs) ws Hw Hr Hn (map f datas) xs ltac:(rewrite map_length; lia) Hws Hxs HB)
      as (v & V1 & V2 & V3 & _). exists v. auto. }
  assert (C : forall e, In e ["image_cutouts"; "weight_cutouts"; "noise_cutouts"; "psf"; "mfrac_cutouts"]%string ->
    forall x, to_single x = x -> store_as e (PF x) = PF x).
  { intros e He x Ex. rewrite (proj1 (C92_written e He)), Ex. reflexivity. }
  assert (M : forall e info n f, In info ["image_cutouts"; "weight_cutouts"; "noise_cutouts"; "psf"; "mfrac_cutouts"]%string ->
    holds o e i n (fun y x => store_as info (PF (stored_over to_single datas (si_weights inputs) (f y x)))) ->
    holds o e i n (fun y x => PF (stored_over to_single datas (si_weights inputs) (f y x)))).
  { intros e info n f He (k & Ek & Hk). exists k. split; [exact Ek|]. intros y x Hy Hxx.
    rewrite Hk by assumption. apply C; [exact He|apply stored_twice]. }
  split. { eexists. split; [apply (M _ _ _ (fun y x d => px (rs_image d) y x)) with (2 := H1); cbn; tauto|].
    intros y x. cbv beta. apply K. }
  split. { eexists. split; [apply (M _ _ _ (fun y x d => unit_fraction (px (rs_interp_frac d) y x))) with (2 := H2); cbn; tauto|].
    intros y x. cbv beta. apply K. }
  split. { eexists. split; [apply (M _ "psf"%string _ (fun y x d => finite_part (px (rs_psf d) y x))); [cbn; tauto|]|].
    - destruct H7 as (k & Ek & Hk). exists k. split; [exact Ek|]. intros y x Hy Hxx. rewrite Hk by assumption.
      rewrite Hp. reflexivity.
    - intros y x. cbv beta. apply K. }
  split. { intros k Hk. eexists. split; [apply (M _ _ _ (noise_at k)) with (2 := H5 k Hk); cbn; tauto|].
    intros y x. cbv beta. apply K. }
  assert (I : forall e f, In e ["bmask_cutouts"; "ormask_cutouts"]%string ->
    holds o e i box (fun y x => store_as e (PI (f y x))) -> holds_mask_single o e i box f).
  { intros e f He (k & Ek & Hk). exists (fun y x => to_i4 (f y x)). split.
    - exists k. split; [exact Ek|]. intros y x Hy Hxx. rewrite Hk by assumption.
      cbn in He. destruct He as [<-|[<-|[]]]; reflexivity.
    - intros y x. apply to_i4_is. }
  split; [apply I; [cbn; tauto|exact H3]|]. split; [apply I; [cbn; tauto|exact H4]|].
  exists (fun y x => stored_over to_single datas (si_weights inputs) (noise_at 0 y x)).
  exists (to_single (inverse_variance_single (map (fun yx => stored_over to_single datas (si_weights inputs)
           (noise_at 0 (fst yx) (snd yx))) (allpix box box)))).
  split; [apply (M _ "noise_cutouts"%string _ (noise_at 0)); [cbn; tauto|apply (H5 0%nat); lia]|].
  split.
  - destruct H6 as (k & Ek & Hk). exists k. split; [exact Ek|]. intros y x Hy Hxx. rewrite Hk by assumption.
    apply C; [cbn; tauto|]. apply (proj2 (proj2 (C92_written "psf"%string ltac:(cbn; tauto)))).
  - apply inverse_spread_single_is.
Qed.

(** Concrete: the tile of the example of C72, with images of value 1 and weight 1 and of
    value 5 and weight 2, and slices 0 and 3. The run completes, its hypotheses hold, and
    the pixels of both slices are 15379115 / 2^22, the single precision number nearest
    to 11/3, which is not the nearest double. *)
Definition thirds_ext : @externals f64 nat :=
  mkext (fun x y => Ok (x, y)) (fun x y => Ok (x, y)) (fun z => Z.to_nat z)
    (fun _ _ _ _ _ _ =>
       [ mksource 0 true true (Ok (ex_slice 11 1 1)) false;
         mksource 0 true true (Ok (ex_slice 12 5 2)) false ])
    (x_map_mask ex_ext) (x_resample ex_ext) (x_rotate ex_ext) (x_normal ex_ext) (x_normal2 ex_ext)
    (x_interpolator ex_ext) (x_median ex_ext) (x_measure_fwhm ex_ext) (x_outliers ex_ext) (x_pow10 ex_ext)
    (x_to_f4 ex_ext) (x_make_foreground_bmask ex_ext).

Definition thirds_run (objs : list object) (o : out pixel (list epoch_row)) : Prop :=
  run_completes pixel (list epoch_row) (PI 0) store_as negative 6 5 0 4 2 50
    (fun _ => mk_obj 0 0 fzero fzero 0 0) Z (fun s => s) (fun g _ _ => (g, g + 1))
    (fun ss it => coadd_single_slice_f4 thirds_ext (select_double thirds_ext ex_config "noise") ex_config ex_tile objs 0 ss it)
    (SRange (mk_range 0 4 3)) (mk_how (fun l => l) 1 None 1) o.

Definition has_weights_thirds (r : result (@slice_inputs f64)) : bool :=
  match r with
  | Ok inputs => match si_weights inputs with
                 | [a; b] => feqb a (fdiv (fofZ 1) (fofZ 3)) && feqb b (fdiv (fofZ 2) (fofZ 3))
                 | _ => false
                 end
  | Raise _ => false
  end.

Example C92_example_file :
  exists objs o, @ex_objects f64 F64Ops = Ok objs /\ length objs = 4%nat /\
    slices_of (SRange (mk_range 0 4 3)) 4 = Ok [0; 3] /\ thirds_run objs o /\
    (forall ob ss sd, In ob objs ->
       has_weights_thirds (select_double thirds_ext ex_config "noise" None ss sd ob fzero fzero) = true) /\
    (exists im, o_fits _ _ o "image_cutouts"%string = Some im /\
       forallb (fun p => match dat _ im p with
                         | PF x => feqb x (fdiv (fofZ 15379115) (fofZ (2 ^ 22))) && negb (feqb x (fdiv (fofZ 11) (fofZ 3)))
                         | PI _ => false
                         end) (zrange 0 36 ++ zrange 108 144) = true) /\
    ordinary_weights [fdiv (fofZ 1) (fofZ 3); fdiv (fofZ 2) (fofZ 3)]
      [6004799503160661 / 2 ^ 54; 6004799503160661 / 2 ^ 53]%R.
Proof.
  assert (H : match @ex_objects f64 F64Ops with
    | Ok objs => (length objs =? 4)%nat &&
       forallb (fun ob => has_weights_thirds (select_double thirds_ext ex_config "noise" None [] 0 ob fzero fzero)) objs &&
       match make_plan Z (fun s => s) (fun g _ _ => (g, g + 1)) (fun l => l) (SRange (mk_range 0 4 3)) 4 50 2 0 1 None with
       | Ok (Serial todo, ss) =>
           match serial _ _ _ (fun it => coadd_single_slice_f4 thirds_ext (select_double thirds_ext ex_config "noise")
                    ex_config ex_tile objs 0 ss it)
                  (process_one pixel store_as negative (list epoch_row) (6 ^ 2) (5 ^ 2))
                  (init_out pixel (PI 0) (list epoch_row) 4 6 5 0 (fun _ => mk_obj 0 0 fzero fzero 0 0)) todo with
           | Ok o => match o_fits _ _ o "image_cutouts"%string with
                     | Some im => forallb (fun p => match dat _ im p with
                         | PF x => feqb x (fdiv (fofZ 15379115) (fofZ (2 ^ 22))) && negb (feqb x (fdiv (fofZ 11) (fofZ 3)))
                         | PI _ => false
                         end) (zrange 0 36 ++ zrange 108 144)
                     | None => false
                     end
           | Raise _ => false
           end
       | _ => false
       end
    | Raise _ => false
    end = true) by (vm_compute; reflexivity).
  destruct ex_objects as [objs|]; [|discriminate].
  apply andb_true_iff in H as [H H3]. apply andb_true_iff in H as [H1 H2]. apply Nat.eqb_eq in H1.
  destruct (make_plan _ _ _ _ _ _ _ _ _ _ _) as [[[todo|? ? ?] ss]|] eqn:Ep; [|discriminate..].
  destruct (serial _ _ _ _ _ _ _) as [o|] eqn:Es; [|discriminate].
  exists objs, o. split; [reflexivity|]. split; [exact H1|]. split; [reflexivity|].
  split. { exists (Serial todo), ss. split; [exact Ep|]. constructor. exact Es. }
  split. { rewrite forallb_forall in H2. intros ob ss' sd Hin. exact (H2 ob Hin). }
  split. { destruct (o_fits _ _ o "image_cutouts"%string) as [im|]; [|discriminate]. exists im. split; [reflexivity|exact H3]. }
  split; [|split].
  - repeat constructor.
    + change (BinarySingleNaN.SF2R radix2 (SpecFloat.S754_finite false 6004799503160661 (-54)) = 6004799503160661 / 2 ^ 54)%R.
      unfold BinarySingleNaN.SF2R, F2R. cbn -[pow]. lra.
    + change (BinarySingleNaN.SF2R radix2 (SpecFloat.S754_finite false 6004799503160661 (-53)) = 6004799503160661 / 2 ^ 53)%R.
      unfold BinarySingleNaN.SF2R, F2R. cbn -[pow]. lra.
  - assert (B : (bpow radix2 (-450) <= / 4)%R) by (change (/ 4)%R with (bpow radix2 (-2)); apply bpow_le; lia).
    assert (B' : (1 <= bpow radix2 450)%R) by (change 1%R with (bpow radix2 0); apply bpow_le; lia).
    repeat (apply Forall_cons; [lra|]). apply Forall_nil.
  - cbn. lia.
Qed.

Print Assumptions C92_double_slices.
Print Assumptions C92_file_contents.
Print Assumptions C92_file_single.
