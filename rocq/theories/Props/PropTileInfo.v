(** C75, C76: preparation of the information about a tile. *)
From Coq Require Import ZArith List Bool String Ascii Lia Reals Lra.
From Coq Require Import List.
From Verif Require Import Lib.Base Lib.Floats Lib.PyStr Lib.PyText Lib.PyDict Model.Piff Model.SeImage Model.TileInfo
  Spec.DesInfoSpec Spec.TileInfoSpec Proofs.SliceInputsProofs Proofs.TileInfoProofs.
Import ListNotations.
Open Scope string_scope.
Open Scope list_scope.
Open Scope Z_scope.

(** C75: what is put into the entry of a source, and that nothing else changes. *)
Theorem C75_source_entry :
  forall (F : Type) (FO : FloatOps F) pow10 piff_rows campaign (ii ii' : dict (val F)),
  prep_source pow10 piff_rows campaign ii = Ok ii' ->
  exists image psf m x scale q,
  dget ii "image_path" = Some image /\ dget ii "psf_path" = Some psf /\ dget ii "magzp" = Some m /\
  number m = Ok x /\ pow10 (fmul (fdec 4 10) (fsub (fofZ 30) x)) = Ok scale /\
  quality piff_rows ii campaign q /\
  extended ii (source_settings image psf scale ++ q) ii'.
Proof.
  intros F FO pow10 piff_rows campaign ii ii' H.
  apply prep_source_spec in H as (p & q & m & x & s & ql & Hp & Hq & Hm & Hx & Hs & Hl & ->).
  exists p, q, m, x, s, ql. do 6 (split; [assumption|]).
  intros k. apply dupdate_get. eapply all_nodup; exact Hl.
Qed.

(** C75: this works exactly when image path, PSF path and zero point are there, the
    scale can be computed, and the quality entry can be found. *)
Theorem C75_source_succeeds :
  forall (F : Type) (FO : FloatOps F) pow10 piff_rows campaign (ii : dict (val F)) image psf m x scale q,
  dget ii "image_path" = Some image -> dget ii "psf_path" = Some psf -> dget ii "magzp" = Some m ->
  number m = Ok x -> pow10 (fmul (fdec 4 10) (fsub (fofZ 30) x)) = Ok scale ->
  quality piff_rows ii campaign q ->
  exists ii', prep_source pow10 piff_rows campaign ii = Ok ii'.
Proof.
  intros F FO pow10 piff_rows campaign ii p q m x s ql Hp Hq Hm Hx Hs Hl. eexists. apply prep_source_spec.
  exists p, q, m, x, s, ql. do 6 (split; [eassumption|]). reflexivity.
Qed.

Theorem C75_source_needs_keys :
  forall (F : Type) (FO : FloatOps F) pow10 piff_rows campaign (ii : dict (val F)),
  dget ii "image_path" = None \/ dget ii "psf_path" = None \/ dget ii "magzp" = None ->
  prep_source pow10 piff_rows campaign ii = Raise KeyError.
Proof.
  intros F FO pow10 piff_rows campaign ii H. rewrite prep_source_eq.
  destruct (dget ii "image_path"), (dget ii "psf_path"), (dget ii "magzp");
    try reflexivity; destruct H as [H|[H|H]]; discriminate.
Qed.

(** C75: the scale that is recorded is the factor that is applied to the pixels
    when a slice of the image is read. *)
Theorem C75_recorded_scale_is_applied :
  forall (F : Type) (FO : FloatOps F) (pow10 : F -> F) piff_rows campaign (ii ii' : dict (val F)) m,
  prep_source (fun x => Ok (pow10 x)) piff_rows campaign ii = Ok ii' ->
  dget ii "magzp" = Some (VNum m) ->
  dget ii' "scale" = Some (VNum (zp_scale pow10 m)) /\ dget ii' "magzp" = Some (VNum m).
Proof.
  intros F FO pow10 piff_rows campaign ii ii' m H Em.
  apply C75_source_entry in H as (p & q & m' & x & s & ql & _ & _ & Hm & Hx & Hs & Hl & E).
  rewrite Em in Hm. injection Hm as <-. apply Ok_inj in Hx. subst x. apply Ok_inj in Hs. subst s.
  rewrite !E. destruct Hl; split; try reflexivity; exact Em.
Qed.

(** C75: the entry of the coadd. *)
Theorem C75_coadd_entry :
  forall (F : Type) (FO : FloatOps F) geom_rows (d d' : dict (val F)),
  prep_coadd geom_rows d = Ok d' <->
  exists image tile g rows,
  dget d "image_path" = Some image /\ dget d "tilename" = Some tile /\ geom_rows tile = Ok (g :: rows) /\
  d' = dupdate d (coadd_settings image g).
Proof.
  intros F FO geom_rows d d'. rewrite prep_coadd_eq. split.
  - destruct (dget d "image_path") as [p|]; [|discriminate]. destruct (dget d "tilename") as [t|]; [|discriminate].
    intros H. apply bind_ok in H as ([|g rows] & Hr & H); [discriminate|]. apply Ok_inj in H. subst.
    exists p, t, g, rows. repeat split; assumption.
  - intros (p & t & g & rows & -> & -> & Hr & ->). rewrite Hr. reflexivity.
Qed.

Theorem C75_coadd_entry_values :
  forall (F : Type) (FO : FloatOps F) (d : dict (val F)) image g,
  extended d (coadd_settings image g) (dupdate d (coadd_settings image g)).
Proof. intros F FO d image g k. apply dupdate_get. apply coadd_nodup. Qed.

(** C75: the number and the order of the sources are kept, each is prepared by
    itself. *)
Theorem C75_whole_tile :
  forall (F : Type) (FO : FloatOps F) pow10 piff_rows geom_rows campaign (i i' : info F),
  add_extra pow10 piff_rows geom_rows campaign i = Ok i' <->
  prep_coadd geom_rows (in_coadd i) = Ok (in_coadd i') /\
  Forall2 (fun a b => prep_source pow10 piff_rows campaign a = Ok b) (in_src i) (in_src i').
Proof. intros F FO pow10 piff_rows geom_rows campaign i i'. apply add_extra_spec. Qed.

(** C75: preparing a tile again changes nothing. *)
Theorem C75_idempotent :
  forall (F : Type) (FO : FloatOps F) pow10 piff_rows geom_rows campaign (i i' : info F),
  add_extra pow10 piff_rows geom_rows campaign i = Ok i' ->
  add_extra pow10 piff_rows geom_rows campaign i' = Ok i'.
Proof. intros F FO pow10 piff_rows geom_rows campaign i i'. apply add_extra_idem. Qed.

(** C75: without a campaign no quality table is asked for. *)
Theorem C75_no_campaign :
  forall (F : Type) (FO : FloatOps F) pow10 rows rows' geom_rows (i : info F),
  add_extra pow10 rows geom_rows None i = add_extra pow10 rows' geom_rows None i.
Proof.
  intros F FO pow10 rows rows' geom_rows i. unfold add_extra.
  assert (E : forall l : list (dict (val F)), prep_sources pow10 rows None l = prep_sources pow10 rows' None l).
  { induction l as [|a l IH]; [reflexivity|]. cbn [prep_sources]. rewrite IH. reflexivity. }
  rewrite E. reflexivity.
Qed.

(** ** C76: the command des-pizza-cutter-prep-tile *)
Section Command.
Context {F : Type} {FO : FloatOps F}.
Variables (pow10 : F -> result F)
          (piff_rows : val F -> string -> result (list (string * piff_row F)))
          (geom_rows : val F -> result (list (geom F)))
          (env : string -> option string) (medsconf tilename band source_dir : string)
          (campaign : option string) (setup : result unit) (gaia_path : result string)
          (clean : result unit) (fetch_stars : string -> result unit) (fetch_data : result unit)
          (get_info : result (info F)) (check dump : info F -> result unit).
Notation command := (prep_tile pow10 piff_rows geom_rows env medsconf tilename band source_dir campaign setup
                       gaia_path clean fetch_stars fetch_data get_info check dump).

(** The information that is to be written. *)
Definition prepared (i : info F) : Prop :=
  exists g i0 c, gaia_path = Ok g /\ get_info = Ok i0 /\ campaign = Some c /\
  add_extra pow10 piff_rows geom_rows (Some (upper c))
    (mkinfo (dset (in_coadd i0) "gaia_stars_file" (VText (path_join source_dir g))) (in_src i0)) = Ok i.

(** C76: the file of a tile is opened only for information that has passed the
    checks, after the downloads, under the name of the tile and band. *)
Theorem C76_file_opened_only_after_checks :
  forall do_clean path, In (Opened path) (fst (command do_clean)) ->
  do_clean = false /\ fetch_data = Ok tt /\ info_file env medsconf tilename band = Ok path /\
  exists i, prepared i /\ check i = Ok tt /\
  (fst (command do_clean), snd (command do_clean))
  = match dump i with
    | Ok _ => ([FetchedStars (match gaia_path with Ok g => g | Raise _ => "" end); FetchedData; Opened path;
                Dumped path i], None)
    | Raise e => ([FetchedStars (match gaia_path with Ok g => g | Raise _ => "" end); FetchedData; Opened path], Some e)
    end.
Proof.
  intros do_clean path. unfold prep_tile, prepared, step, emit.
  destruct setup as [u|e]; [|intros []]. destruct gaia_path as [g|e]; [|intros []].
  destruct do_clean.
  { destruct clean; cbn; intros H; [destruct H as [H|[]]; discriminate|destruct H]. }
  destruct (fetch_stars g); [|intros []].
  destruct fetch_data as [[]|e]; [|cbn; intros [H|[]]; discriminate].
  destruct get_info as [i0|e]; [|cbn; intros [H|[H|[]]]; discriminate].
  destruct campaign as [c|]; [|cbn; intros [H|[H|[]]]; discriminate].
  destruct (add_extra _ _ _ _ _) as [i|e] eqn:Ei; [|cbn; intros [H|[H|[]]]; discriminate].
  destruct (check i) as [[]|e] eqn:Ec; [|cbn; intros [H|[H|[]]]; discriminate].
  destruct (info_file env medsconf tilename band) as [p|e]; [|cbn; intros [H|[H|[]]]; discriminate].
  intros H. assert (p = path).
  { destruct (dump i); cbn in H; decompose [or] H; try discriminate; try contradiction; congruence. }
  subst p. split; [reflexivity|]. split; [reflexivity|]. split; [reflexivity|].
  exists i. split; [exists g, i0, c; repeat split; exact Ei|]. split; [exact Ec|].
  destruct (dump i); reflexivity.
Qed.

(** C76: an exception before that leaves an older file of the tile as it is; one
    while writing leaves it incomplete. *)
Theorem C76_complete_file_or_exception :
  forall do_clean path, In (Opened path) (fst (command do_clean)) ->
  (snd (command do_clean) = None <-> exists i, In (Dumped path i) (fst (command do_clean)) /\ prepared i /\ check i = Ok tt).
Proof.
  intros do_clean path H. destruct (C76_file_opened_only_after_checks do_clean path H) as (_ & _ & _ & i & Hp & Hc & E).
  destruct (dump i); injection E as E1 E2; rewrite E1, E2.
  - split; [intros _|reflexivity]. exists i. split; [cbn; tauto|]. split; assumption.
  - split; [discriminate|]. intros (j & Hj & _). cbn in Hj. decompose [or] Hj; try discriminate; contradiction.
Qed.

(** C76: if every step works the file is written. *)
Theorem C76_succeeds :
  forall g path i, setup = Ok tt -> gaia_path = Ok g -> fetch_stars g = Ok tt -> fetch_data = Ok tt ->
  prepared i -> check i = Ok tt -> info_file env medsconf tilename band = Ok path -> dump i = Ok tt ->
  command false = ([FetchedStars g; FetchedData; Opened path; Dumped path i], None).
Proof.
  intros g path i H1 H2 H3 H4 (g' & i0 & c & E1 & E2 & E3 & E4) H5 H6 H7. rewrite H2 in E1. injection E1 as <-.
  unfold prep_tile, step, emit. rewrite H1, H2, H3, H4, E2, E3, E4, H5, H6, H7. reflexivity.
Qed.

(** C76: and a command that ends without an exception has written it. *)
Theorem C76_no_exception_means_written :
  snd (command false) = None ->
  exists g path i, info_file env medsconf tilename band = Ok path /\ prepared i /\ check i = Ok tt /\
  fst (command false) = [FetchedStars g; FetchedData; Opened path; Dumped path i].
Proof.
  unfold prep_tile, prepared, step, emit.
  destruct setup as [u|e]; [|discriminate]. destruct gaia_path as [g|e]; [|discriminate].
  destruct (fetch_stars g); [|discriminate]. destruct fetch_data as [[]|e]; [|discriminate].
  destruct get_info as [i0|e]; [|discriminate]. destruct campaign as [c|]; [|discriminate].
  destruct (add_extra _ _ _ _ _) as [i|e] eqn:Ei; [|discriminate].
  destruct (check i) as [[]|e] eqn:Ec; [|discriminate].
  destruct (info_file env medsconf tilename band) as [p|e]; [|discriminate].
  destruct (dump i) as [[]|e]; [|discriminate]. intros _. exists g, p, i.
  split; [reflexivity|]. split; [exists g, i0, c; repeat split; exact Ei|]. split; [exact Ec|]. reflexivity.
Qed.

(** C76: cleaning fetches and writes nothing ... *)
Theorem C76_clean :
  fst (command true) = [] \/ fst (command true) = [Cleaned] /\ snd (command true) = None /\ clean = Ok tt.
Proof.
  unfold prep_tile, step, emit. destruct setup; [|auto]. destruct gaia_path; [|auto].
  destruct clean as [[]|]; auto.
Qed.

(** C76: ... but needs the star catalogue to be known. *)
Theorem C76_clean_needs_stars_refuted :
  forall e, setup = Ok tt -> gaia_path = Raise e -> command true = ([], Some e).
Proof. intros e H1 H2. unfold prep_tile, step. rewrite H1, H2. reflexivity. Qed.

(** C76: a tile without a Piff campaign cannot be prepared by the command, and this
    is found out after the downloads. *)
Theorem C76_campaign_needed :
  forall g i0, setup = Ok tt -> gaia_path = Ok g -> fetch_stars g = Ok tt -> fetch_data = Ok tt ->
  get_info = Ok i0 -> campaign = None ->
  command false = ([FetchedStars g; FetchedData], Some AttributeError).
Proof. intros g i0 H1 H2 H3 H4 H5 H6. unfold prep_tile, step, emit. rewrite H1, H2, H3, H4, H5, H6. reflexivity. Qed.
End Command.

(** C76: different tiles and bands have different files. *)
Theorem C76_files_are_distinct :
  forall env medsconf tile band tile' band' path,
  free_of "/" tile -> free_of "/" tile' -> free_of "_" band -> free_of "_" band' ->
  info_file env medsconf tile band = Ok path -> info_file env medsconf tile' band' = Ok path ->
  tile = tile' /\ band = band'.
Proof. exact info_file_inj. Qed.

(** C76: where the file is: in the directory pizza_cutter_info of the configuration, below
    the directory that the environment gives. *)
Theorem C76_file_name :
  forall env dir medsconf tile band,
  env "MEDS_DIR"%string = Some dir -> dir <> ""%string -> ~ ends "/" dir ->
  medsconf <> ""%string -> free_of "/" medsconf -> free_of "/" tile ->
  info_file env medsconf tile band =
  Ok (dir ++ "/" ++ medsconf ++ "/pizza_cutter_info/" ++ tile ++ "_" ++ band ++ "_pizza_cutter_info.yaml")%string.
Proof. exact info_file_is. Qed.

Theorem C76_file_needs_the_directory :
  forall env medsconf tile band, env "MEDS_DIR"%string = None ->
  info_file env medsconf tile band = Raise KeyError.
Proof. intros env medsconf tile band H. unfold info_file. now rewrite H. Qed.

(** ** Concrete cases *)
Definition ex_row : piff_row R := mkpr (mkpi 0 1%R 1%R 1%R 30 1%R 1%R) 42 7.
Definition ex_src : dict (val R) :=
  [("image_path", VText "a/im.fits"); ("psf_path", VText "a/p.psf"); ("magzp", VInt 30);
   ("image_flags", VInt 8); ("piff_path", VText "a/m.piff"); ("expnum", VInt 42)].
Definition ex_rows (e : val R) (c : string) : result (list (string * piff_row R)) :=
  if String.eqb c "Y6" then Ok [("other.piff", ex_row); ("m.piff", ex_row)] else Ok [].

Example C75_example :
  match prep_source (fun x => Ok x) ex_rows (Some "Y6") ex_src with
  | Ok d => dget d "image_flags" = Some (VInt 0) /\ dget d "weight_path" = Some (VText "a/im.fits") /\
            dget d "piff_info" = Some (VPiff ex_row) /\ dget d "expnum" = Some (VInt 42)
  | Raise _ => False
  end.
Proof. cbn. repeat split. Qed.

Example C75_example_missing_row :
  prep_source (F := R) (fun x => Ok x) (fun _ _ => Ok [("other.piff", ex_row)]) (Some "Y6") ex_src = Raise KeyError.
Proof. reflexivity. Qed.

Definition ex_info : info R :=
  mkinfo [("image_path", VText "DES_r.fits"); ("tilename", VText "DES")] [ex_src].
Definition ex_geom (t : val R) : result (list (geom R)) :=
  Ok [mkgeom (VText "N") (VInt 1) (VInt 2) (VInt 3) (VInt 4)].

Example C76_example :
  match prep_tile (F := R) (fun x => Ok x) ex_rows ex_geom (fun _ => Some "/meds") "conf" "DES" "r" "/src"
          (Some "y6") (Ok tt) (Ok "gaia.fits") (Ok tt) (fun _ => Ok tt) (Ok tt) (Ok ex_info)
          (fun _ => Ok tt) (fun _ => Ok tt) false with
  | ([FetchedStars "gaia.fits"; FetchedData; Opened p; Dumped p' i], None) =>
      p = "/meds/conf/pizza_cutter_info/DES_r_pizza_cutter_info.yaml" /\ p' = p /\
      dget (in_coadd i) "gaia_stars_file" = Some (VText "/src/gaia.fits") /\
      dget (in_coadd i) "uramax" = Some (VInt 4)
  | _ => False
  end.
Proof. cbn. repeat split. Qed.

Print Assumptions C75_source_entry.
Print Assumptions C75_source_succeeds.
Print Assumptions C75_source_needs_keys.
Print Assumptions C75_recorded_scale_is_applied.
Print Assumptions C75_coadd_entry.
Print Assumptions C75_coadd_entry_values.
Print Assumptions C75_whole_tile.
Print Assumptions C75_idempotent.
Print Assumptions C75_no_campaign.
Print Assumptions C76_file_opened_only_after_checks.
Print Assumptions C76_complete_file_or_exception.
Print Assumptions C76_succeeds.
Print Assumptions C76_no_exception_means_written.
Print Assumptions C76_clean.
Print Assumptions C76_clean_needs_stars_refuted.
Print Assumptions C76_campaign_needed.
Print Assumptions C76_files_are_distinct.
Print Assumptions C76_file_name.
Print Assumptions C76_file_needs_the_directory.
