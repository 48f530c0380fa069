(** C79: a whole run. *)
From Coq Require Import ZArith List Bool String Lia Permutation.
From Coq Require Import List.
From Verif Require Import Lib.Base Lib.Floats Lib.PyStr Model.Files Model.SliceRange Model.Jobs Model.Sched
  Model.ImageInfo Model.ObjectData Model.Writer Model.Metadata Model.Main
  Spec.FilesSpec Spec.WriterSpec Spec.RunSpec Spec.MetadataSpec Spec.MainSpec
  Proofs.BaseFacts Proofs.SliceInputsProofs Proofs.MetadataProofs Proofs.MainProofs Props.PropFiles Props.PropRun.
Import ListNotations.
Open Scope string_scope.
Open Scope list_scope.
Open Scope Z_scope.

Section C79.
Context {F : Type} {FO : FloatOps F}.
Variables (V E E' Stars WCS : Type)
          (env : string -> option text) (ver : string -> text)
          (image2sky : WCS -> F -> F -> result (F * F))
          (get_jacobian : WCS -> F -> F -> result (F * F * F * F))
          (work : @args F WCS -> @prepared F WCS -> result (@out F V E))
          (combine_epochs : list E -> result E')
          (read_stars : string -> WCS -> Z -> result Stars)
          (C : Type) (bytes : @fits_file F V E' Stars -> C) (partial : option C) (fpack : C -> bool * option C)
          (valid : C -> bool) (dev : device C).
Notation prepare := (prepare WCS env ver image2sky get_jacobian).
Notation make_slices := (make_slices V E E' Stars WCS env ver image2sky get_jacobian work combine_epochs read_stars
                           C bytes partial fpack valid dev).

(** C79: inputs that are not usable are found before the output is touched. *)
Theorem C79_unusable_input_changes_nothing :
  forall s a meds_path tmpdir remove_fits,
  (env "MEDS_DIR" = None \/ ~ ascii_text (a_json WCS a) \/
   (exists e, build_image_info (a_coadd WCS a) (a_srcs WCS a) = Raise e) \/
   (a_shape WCS a = None /\ exists e, a_header WCS a = Raise e) \/
   a_central WCS a = None \/ a_buffer WCS a = None \/ a_psf_box WCS a = None \/
   a_wcs WCS a = None \/ a_offset WCS a = None \/
   (exists c b p w o rows cols e, a_central WCS a = Some c /\ a_buffer WCS a = Some b /\ a_psf_box WCS a = Some p /\
      a_wcs WCS a = Some w /\ a_offset WCS a = Some o /\ a_shape WCS a = Some (rows, cols) /\
      build_object_data (image2sky w) (get_jacobian w) c b cols p o = Raise e)) ->
  exists e, make_slices s a meds_path tmpdir remove_fits = (s, Raise e).
Proof.
  intros s a meds_path tmpdir remove_fits H. unfold Main.make_slices.
  destruct (prepare a) as [p|e] eqn:Ep; [|exists e; reflexivity]. exfalso. revert Ep. unfold Main.prepare.
  pose proof (@metadata_outcome F FO env ver (a_config WCS a) (a_json WCS a)) as O.
  destruct (build_metadata env ver (a_config WCS a) (a_json WCS a)) as [[m b]|]; [|discriminate]. cbn [bind].
  destruct O as [O1 O2]. destruct H as [H|[H|H]]; [contradiction|contradiction|].
  destruct (build_image_info _ _) as [ii|e]; [|discriminate]. cbn [bind]. destruct H as [[e H]|H]; [discriminate|].
  destruct (a_shape WCS a) as [[r w]|] eqn:Es.
  - cbn [bind]. destruct H as [[H _]|H]; [discriminate|].
    unfold key. destruct (a_central WCS a) as [c|]; [|discriminate]. destruct (a_buffer WCS a) as [bu|]; [|discriminate].
    destruct (a_psf_box WCS a) as [pb|]; [|discriminate]. destruct (a_wcs WCS a) as [wc|]; [|discriminate].
    destruct (a_offset WCS a) as [off|]; [|discriminate]. cbn [bind].
    repeat (destruct H as [H|H]; [discriminate|]).
    destruct H as (c' & b' & p' & w' & o' & rows & cols & e & H1 & H2 & H3 & H4 & H5 & H6 & H7).
    injection H1 as <-. injection H2 as <-. injection H3 as <-. injection H4 as <-. injection H5 as <-.
    injection H6 as <- <-. rewrite H7. discriminate.
  - destruct (a_header WCS a) as [[z n]|e] eqn:Eh; [|discriminate]. cbn [bind].
    destruct H as [[_ [e H]]|H]; [discriminate|].
    destruct (get_image_width z n); [|discriminate]. cbn [bind].
    unfold key. destruct (a_central WCS a) as [c|]; [|discriminate]. destruct (a_buffer WCS a) as [bu|]; [|discriminate].
    destruct (a_psf_box WCS a) as [pb|]; [|discriminate]. destruct (a_wcs WCS a) as [wc|]; [|discriminate].
    destruct (a_offset WCS a) as [off|]; [|discriminate]. cbn [bind].
    repeat (destruct H as [H|H]; [discriminate|]).
    destruct H as (c' & b' & p' & w' & o' & rows & cols & e & H1 & H2 & H3 & H4 & H5 & H6 & H7). discriminate.
Qed.

(** C79: what a run that ends normally has written. The work on the slices is any
    run of C31-C35. *)
Theorem C79_output :
  forall zero cast isneg nsrc seed obj0 rng init randint slice_work h,
  (forall a p o central buffer psf_box,
     a_central WCS a = Some central -> a_buffer WCS a = Some buffer -> a_psf_box WCS a = Some psf_box ->
     work a p = Ok o ->
     run_completes V E zero cast isneg (central + 2 * buffer) psf_box (a_n_extra WCS a)
       (Z.of_nat (length (p_objects WCS p))) nsrc seed obj0 rng init randint slice_work (a_slices WCS a) h o) ->
  valid_how h ->
  forall s a meds_path tmpdir remove_fits s',
  forward (a_slices WCS a) ->
  match tmpdir with None => True | Some d => d = fst meds_path end ->
  make_slices s a meds_path tmpdir remove_fits = (s', Ok tt) ->
  exists p wcs offset central buffer psf_box width o images rows e stars c l,
  a_wcs WCS a = Some wcs /\ a_offset WCS a = Some offset /\ a_central WCS a = Some central /\
  a_buffer WCS a = Some buffer /\ a_psf_box WCS a = Some psf_box /\ option_map snd (a_shape WCS a) = Some width /\
  build_metadata env ver (a_config WCS a) (a_json WCS a) = Ok (p_meta WCS p, a_json WCS a) /\
  build_image_info (a_coadd WCS a) (a_srcs WCS a) = Ok (p_images WCS p) /\
  build_object_data (image2sky wcs) (get_jacobian wcs) central buffer width psf_box offset = Ok (p_objects WCS p) /\
  let num := Z.of_nat (length (p_objects WCS p)) in
  slices_of (a_slices WCS a) num = Ok l /\
  run_completes V E zero cast isneg (central + 2 * buffer) psf_box (a_n_extra WCS a) num
    nsrc seed obj0 rng init randint slice_work (a_slices WCS a) h o /\
  images_of_output V E E' Stars (central + 2 * buffer) psf_box (a_n_extra WCS a) num o images /\
  object_rows V E (p_objects WCS p) o rows /\
  combine_epochs (o_epochs V E o) = Ok e /\
  stars_of V E' Stars WCS read_stars (a_stars WCS a) wcs offset stars /\
  snd (fpack (bytes (images ++
         [ ("object_data", CObjects V E' Stars rows); ("epochs_info", CEpochs V E' Stars e);
           ("metadata", CMeta V E' Stars (p_meta WCS p)); ("tile_info", CBytes V E' Stars (a_json WCS a));
           ("image_info", CImages V E' Stars (p_images WCS p)) ] ++ stars))) = Some c /\
  valid c = true /\ file s' (add_fz meds_path) = Some c.
Proof.
  intros zero cast isneg nsrc seed obj0 rng init randint sw h Hwork Vh s a mp tmpdir rm s' Hf Ht H.
  unfold Main.make_slices in H. destruct (prepare a) as [p|e] eqn:Ep; [|injection H; discriminate].
  set (r := whole_file _ _ _ _ _ _ _ _ _ _) in H.
  destruct r as [f|e] eqn:Er.
  2:{ cbn [bind] in H. apply C28_exception_propagates with (e := e) in H; [discriminate|reflexivity]. }
  cbn [bind] in H. destruct (fpack (bytes f)) as [ok packed] eqn:Efp.
  apply C28_own_output in H; [|exact Ht]. destruct H as (c & Hc & Hv & Hfile).
  cbn [w_fpack_out w_valid] in Hc, Hv.
  unfold Main.prepare in Ep. apply bind_ok in Ep as ([m b] & Em & Ep).
  apply bind_ok in Ep as (ii & Ei & Ep). apply bind_ok in Ep as (width & Ew & Ep).
  apply bind_ok in Ep as (central & Ec & Ep). apply bind_ok in Ep as (buffer & Eb & Ep).
  apply bind_ok in Ep as (psf_box & Epb & Ep). apply bind_ok in Ep as (wcs & Ewcs & Ep).
  apply bind_ok in Ep as (offset & Eo & Ep). apply bind_ok in Ep as (objs & Eobj & Ep). apply Ok_inj in Ep. subst p.
  assert (K : forall A (o : option A) v, key o = Ok v -> o = Some v).
  { intros A [x|] v X; [apply Ok_inj in X; subst; reflexivity|discriminate]. }
  apply K in Ec, Eb, Epb, Ewcs, Eo.
  assert (Eb' : b = a_json WCS a).
  { pose proof (metadata_spec _ _ _ _ _ _ Em) as (_ & _ & _ & _ & X). apply encode_iff in X as [_ X]. exact X. }
  subst b. unfold r, whole_file in Er. apply bind_ok in Er as (f1 & E1 & Er).
  unfold coadd_and_write in E1. cbn [p_objects p_meta p_bytes p_images p_wcs p_offset] in *.
  apply bind_ok in E1 as (rg & Erg & E1). apply bind_ok in E1 as ([nr nc] & Esh & E1).
  apply K in Esh. rewrite Esh in Ew. apply Ok_inj in Ew. subst nc.
  apply bind_ok in E1 as (o & Eout & E1). cbv zeta in E1.
  destruct (Nat.eqb _ _); [|discriminate]. apply bind_ok in E1 as (e & Ee & E1). apply Ok_inj in E1. subst f1.
  set (num := Z.of_nat (length objs)) in *.
  pose proof (Hwork _ _ _ _ _ _ Ec Eb Epb Eout) as Hrun. cbn [p_objects] in Hrun. fold num in Hrun.
  assert (Esl : slices_of (a_slices WCS a) num = Ok (range_list rg)) by (unfold slices_of; rewrite Erg; reflexivity).
  pose proof (run_dims V E zero cast isneg _ _ _ num nsrc seed obj0 rng init randint sw (a_slices WCS a) h o
                (Nat2Z.is_nonneg _) Hf Vh _ Esl Hrun) as Hd.
  set (images := flat_map _ _) in *. set (rows := combine _ _) in *.
  assert (Himg : images_of_output V E E' Stars (central + 2 * buffer) psf_box (a_n_extra WCS a) num o images).
  { unfold images_of_output, images. rewrite <- (layout_names (central + 2 * buffer) psf_box (a_n_extra WCS a)).
    revert Hd. clear. induction (layout _ _ _) as [|[[n t] per] l IH]; intros Hd; [constructor|].
    cbn [map fst flat_map]. destruct (Hd n t per ltac:(left; reflexivity)) as (k & Hk & Dk). rewrite Hk. cbn [app].
    constructor; [exists k; repeat split; assumption|]. apply IH. intros n' t' per' Hin. apply (Hd n' t' per').
    right. exact Hin. }
  assert (Hrows : object_rows V E objs o rows).
  { unfold object_rows, rows. split.
    - rewrite combine_length, map_length, zrange_length. unfold num. lia.
    - intros k ob Hk. assert (Hlt : (k < length objs)%nat) by (apply nth_error_Some; congruence).
      assert (Hm : nth_error (map (o_obj V E o) (zrange 0 num)) k = Some (o_obj V E o (Z.of_nat k))).
      { rewrite nth_error_map, nth_error_zrange by (unfold num; lia). cbn [option_map]. rewrite Z.add_0_l. reflexivity. }
      revert Hk Hm. generalize objs (map (o_obj V E o) (zrange 0 num)) (o_obj V E o (Z.of_nat k)). clear.
      induction k as [|k IH]; intros [|x l] [|y l'] v H1 H2; try discriminate; cbn in *.
      + injection H1 as ->. injection H2 as ->. reflexivity.
      + apply IH; assumption. }
  exists (mkprep WCS m (a_json WCS a) ii objs wcs offset), wcs, offset, central, buffer, psf_box, width, o, images, rows, e.
  assert (HS : exists stars, stars_of V E' Stars WCS read_stars (a_stars WCS a) wcs offset stars /\
     f = images ++ [("object_data", CObjects V E' Stars rows); ("epochs_info", CEpochs V E' Stars e);
                    ("metadata", CMeta V E' Stars m); ("tile_info", CBytes V E' Stars (a_json WCS a));
                    ("image_info", CImages V E' Stars ii)] ++ stars).
  { unfold stars_of. destruct (a_stars WCS a) as [name|].
    - apply bind_ok in Er as (st & Est & Er). apply Ok_inj in Er. exists [("gaia_stars", CStars V E' Stars st)].
      split; [exists st; split; [exact Est|reflexivity]|]. rewrite <- Er. rewrite <- !app_assoc. reflexivity.
    - exists []. split; [reflexivity|]. apply Ok_inj in Er. rewrite <- Er. rewrite <- !app_assoc. reflexivity. }
  destruct HS as (stars & HS & Ef). exists stars, c, (range_list rg). cbn [p_meta p_images p_objects].
  split; [exact Ewcs|]. split; [exact Eo|]. split; [exact Ec|]. split; [exact Eb|]. split; [exact Epb|].
  split; [rewrite Esh; reflexivity|]. split; [exact Em|]. split; [exact Ei|]. split; [exact Eobj|].
  cbv zeta. fold num. split; [exact Esl|]. split; [exact Hrun|]. split; [exact Himg|]. split; [exact Hrows|].
  split; [exact Ee|]. split; [exact HS|]. rewrite <- Ef, Efp. cbn [snd]. split; [exact Hc|]. split; [exact Hv|exact Hfile].
Qed.

(** C79: and if every part works the run ends normally. *)
Theorem C79_succeeds :
  forall s a meds_path tmpdir remove_fits p f c,
  prepare a = Ok p ->
  whole_file V E E' Stars WCS work combine_epochs read_stars a p = Ok f ->
  snd (fpack (bytes f)) = Some c -> valid c = true ->
  snd (make_slices s a meds_path tmpdir remove_fits) = Ok tt /\
  file (fst (make_slices s a meds_path tmpdir remove_fits)) (add_fz meds_path) = Some c.
Proof.
  intros s a mp tmpdir rm p f c Hp Hf Hc Hv. unfold Main.make_slices. rewrite Hp, Hf. cbn [bind].
  destruct (fpack (bytes f)) as [ok packed]. cbn [snd] in Hc. subst packed.
  destruct (make_slices_files _ _ _ _ _) as [s' r] eqn:E1.
  pose proof (C28_outcome C _ _ _ _ _ _ _ (bytes f) E1 eq_refl) as [A B].
  cbn [w_fpack_out w_valid] in A, B. rewrite Hv in B. cbn [fst snd]. split; assumption.
Qed.

(** C79: the shape of the coadd is optional only for making the object table: a
    run without it never ends normally. *)
Theorem C79_shape_is_optional_refuted :
  forall s a meds_path tmpdir remove_fits, a_shape WCS a = None ->
  snd (make_slices s a meds_path tmpdir remove_fits) <> Ok tt.
Proof.
  intros s a mp tmpdir rm Hs. unfold Main.make_slices. destruct (prepare a) as [p|e]; [|discriminate].
  assert (W : exists e, whole_file V E E' Stars WCS work combine_epochs read_stars a p = Raise e).
  { unfold whole_file, coadd_and_write. rewrite Hs.
    destruct (extract_slice_range _ _) as [rg|e]; cbn [bind key]; eexists; reflexivity. }
  destruct W as [e W]. rewrite W. cbn [bind].
  destruct (make_slices_files _ _ _ _ _) as [s' r] eqn:E1.
  apply C28_exception_propagates with (e := e) in E1; [|reflexivity]. cbn [snd]. subst r. discriminate.
Qed.
End C79.

(** C79: the extensions have different names. *)
Theorem C79_names_are_distinct :
  forall box psf_box n_extra,
  NoDup (map (fun x => fst (fst x)) (layout box psf_box n_extra) ++
         ["object_data"; "epochs_info"; "metadata"; "tile_info"; "image_info"; "gaia_stars"]).
Proof. exact all_names_distinct. Qed.

(** ** A concrete run: four slices of 2 by 2 pixels *)
Definition ex_run_work (a : @args f64 unit) (p : @prepared f64 unit) : result (@out f64 Z Z) :=
  let num := Z.of_nat (length (p_objects unit p)) in
  ' (plan, ss) <- make_plan Z (fun s => s) (fun g _ _ => (g, g + 1)) (h_order serial_how) (a_slices unit a) num 50 2
                    (a_n_extra unit a) 1 None ;;
  match plan with
  | Serial todo => serial _ _ _ (demo_work ss)
      (process_one Z (fun _ v => v) (fun v => v <? 0) Z
         ((match a_central unit a with Some c => c | None => 0 end +
           2 * match a_buffer unit a with Some b => b | None => 0 end) ^ 2)
         (match a_psf_box unit a with Some b => b | None => 0 end ^ 2))
      (init_out Z 0 Z num
         (match a_central unit a with Some c => c | None => 0 end +
          2 * match a_buffer unit a with Some b => b | None => 0 end)
         (match a_psf_box unit a with Some b => b | None => 0 end) (a_n_extra unit a) demo_obj0) todo
  | Parallel _ _ _ => Raise OtherError
  end.

(** The hypothesis of C79_output about the work is met. *)
Example C79_example_work :
  forall a p o central buffer psf_box,
  a_central unit a = Some central -> a_buffer unit a = Some buffer -> a_psf_box unit a = Some psf_box ->
  ex_run_work a p = Ok o ->
  run_completes Z Z 0 (fun _ v => v) (fun v => v <? 0) (central + 2 * buffer) psf_box (a_n_extra unit a)
    (Z.of_nat (length (p_objects unit p))) 2 50 demo_obj0 Z (fun s => s) (fun g _ _ => (g, g + 1)) demo_work
    (a_slices unit a) serial_how o.
Proof.
  intros a p o central buffer psf_box E1 E2 E3 H. unfold ex_run_work in H. rewrite E1, E2, E3 in H.
  apply bind_ok in H as ([plan ss] & Hp & H). destruct plan as [todo|]; [|discriminate].
  exists (Serial todo), ss. split; [exact Hp|]. constructor. exact H.
Qed.

Definition ex_entry (id : Z) : @im_entry f64 :=
  mkim id 0 fone fone fone "a" "sci" "a" "wgt" "a" "msk" "b" "sci" (Ok "{}").
Definition ex_args : @args f64 unit :=
  mkargs unit [97] [123; 125] (ex_entry 0) [ex_entry 1; ex_entry 2] (Some (4, 4)) (Raise IOError)
    (Some 2) (Some 0) (Some 1) (Some tt) (Some 1) (Some "stars.fits") SNone 1.

Example C79_example :
  let '(s', r) := make_slices Z Z (list Z) string unit (fun _ => Some [47]) (fun _ => [49])
       (fun _ x y => Ok (x, y)) (fun _ _ _ => Ok (fone, fzero, fzero, fone))
       ex_run_work (fun l => Ok l) (fun name _ _ => Ok name)
       (list string) (map fst) None (fun c => (true, Some ("packed" :: c))) (fun c => Nat.eqb (length c) 16)
       SameDevice (mk_fsys (fun _ => None) (fun _ => false)) ex_args ("out", "x.fits") None true in
  r = Ok tt /\
  file s' ("out", "x.fits.fz") = Some ["packed"; "image_cutouts"; "weight_cutouts"; "seg_cutouts"; "bmask_cutouts";
    "ormask_cutouts"; "noise_cutouts"; "mfrac_cutouts"; "noise1_cutouts"; "psf"; "object_data"; "epochs_info";
    "metadata"; "tile_info"; "image_info"; "gaia_stars"].
Proof. vm_compute. split; reflexivity. Qed.

Print Assumptions C79_unusable_input_changes_nothing.
Print Assumptions C79_output.
Print Assumptions C79_succeeds.
Print Assumptions C79_shape_is_optional_refuted.
Print Assumptions C79_names_are_distinct.
