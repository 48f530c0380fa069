(** C87: the star catalogue and the geometry of a tile are fetched from the archive. *)
From Coq Require Import ZArith List Bool String Ascii Lia Permutation.
From Coq Require Import List.
From Verif Require Import Lib.Base Lib.Floats Lib.PyStr Lib.PyText Lib.PyDict Model.Piff Model.TileInfo Model.Archive
  Spec.DesInfoSpec Spec.TileInfoSpec Spec.ArchiveSpec
  Proofs.PyStrProofs Proofs.DesInfoProofs Proofs.ArchiveProofs Proofs.LoadInfoProofs Proofs.TileInfoProofs
  Props.PropTileInfo.
Import ListNotations.
Open Scope string_scope.
Open Scope list_scope.

(** C87: the path is that of a catalogue of the tile in the archive. *)
Theorem C87_catalogue_of_the_tile :
  forall in_order files archive tilename version path,
  (forall l, Permutation (in_order l) l) -> no_wildcard tilename -> no_wildcard version ->
  get_gaia_path in_order files archive tilename (Some version) = Ok path ->
  exists dir name, in_archive files archive tilename version dir name /\ path = path_join dir name.
Proof.
  intros in_order files archive tile version path Ho Ht Hv H. unfold get_gaia_path in H.
  pose proof (gaia_rows_in in_order files archive tile version Ho Ht Hv) as G.
  destruct (gaia_rows _ _ _ _ _) as [|[d n] rows]; [discriminate|]. injection H as <-.
  exists d, n. split; [|reflexivity]. apply G. now left.
Qed.

(** C87: it is found if there is one, and otherwise the call fails. *)
Theorem C87_found_if_there :
  forall in_order files archive tilename version,
  (forall l, Permutation (in_order l) l) -> no_wildcard tilename -> no_wildcard version ->
  let r := get_gaia_path in_order files archive tilename (Some version) in
  ((exists path, r = Ok path) <-> exists dir name, in_archive files archive tilename version dir name) /\
  (forall e, r = Raise e -> e = RuntimeError).
Proof.
  intros in_order files archive tile version Ho Ht Hv r. unfold r, get_gaia_path. clear r.
  pose proof (gaia_rows_in in_order files archive tile version Ho Ht Hv) as G.
  destruct (gaia_rows _ _ _ _ _) as [|[d n] rows].
  - split; [|intros e H; congruence]. split; [intros (p & H); discriminate|].
    intros (d & n & H). apply G in H. destruct H.
  - split; [|discriminate]. split; [|eauto]. intros _. exists d, n. apply G. now left.
Qed.

(** C87: with one such catalogue the order of the rows does not matter. *)
Theorem C87_only_one :
  forall order1 order2 files1 files2 archive1 archive2 tilename version,
  (forall l, Permutation (order1 l) l) -> (forall l, Permutation (order2 l) l) ->
  Permutation files1 files2 -> Permutation archive1 archive2 ->
  no_wildcard tilename -> no_wildcard version ->
  (forall d n d' n', in_archive files1 archive1 tilename version d n ->
     in_archive files1 archive1 tilename version d' n' -> d = d' /\ n = n') ->
  get_gaia_path order1 files1 archive1 tilename (Some version)
  = get_gaia_path order2 files2 archive2 tilename (Some version).
Proof.
  intros o1 o2 f1 f2 a1 a2 tile version H1 H2 Hf Ha Ht Hv Hu. unfold get_gaia_path.
  pose proof (gaia_rows_in o1 f1 a1 tile version H1 Ht Hv) as G1.
  pose proof (gaia_rows_in o2 f2 a2 tile version H2 Ht Hv) as G2.
  assert (S : forall d n, in_archive f2 a2 tile version d n <-> in_archive f1 a1 tile version d n).
  { intros d n. unfold in_archive. split; intros (A & B & C);
      (split; [eapply Permutation_in; [|exact A]; auto using Permutation_sym|];
       split; [eapply Permutation_in; [|exact B]; auto using Permutation_sym|exact C]). }
  destruct (gaia_rows o1 _ _ _ _) as [|[d n] r1], (gaia_rows o2 _ _ _ _) as [|[d' n'] r2].
  - reflexivity.
  - exfalso. apply (G1 d' n'). apply S, G2. now left.
  - exfalso. apply (G2 d n). apply S, G1. now left.
  - assert (A : in_archive f1 a1 tile version d n) by (apply G1; now left).
    assert (B : in_archive f1 a1 tile version d' n') by (apply S, G2; now left).
    destruct (Hu d n d' n' A B) as [-> ->]. reflexivity.
Qed.

Definition ex_files : list desfile :=
  [mkdf "DES0146-3623_GAIA_DR2_v1.fits" "cat_tile_gaia"; mkdf "DES0146-3623_r_img.fits" "coadd";
   mkdf "DES0433-2332_GAIA_DR2_v1.fits" "cat_tile_gaia"].
Definition ex_archive : list archive_info :=
  [mkai "OPS/cal/cat_tile_gaia/v1" "DES0433-2332_GAIA_DR2_v1.fits";
   mkai "OPS/cal/cat_tile_gaia/v1" "DES0146-3623_GAIA_DR2_v1.fits"].

Example C87_example :
  no_wildcard "DES0146-3623" /\ no_wildcard "v1" /\
  get_gaia_path (fun l => l) ex_files ex_archive "DES0146-3623" None
  = Ok "OPS/cal/cat_tile_gaia/v1/DES0146-3623_GAIA_DR2_v1.fits" /\
  get_gaia_path (fun l => l) ex_files ex_archive "DES0146-3623" (Some "v2") = Raise RuntimeError.
Proof.
  split; [split; apply free_iff; reflexivity|]. split; [split; apply free_iff; reflexivity|].
  split; vm_compute; reflexivity.
Qed.

(** C87, false: that the catalogue has the version asked for. Any version that ends
    with it is as good, and the first row wins. *)
Theorem C87_version_refuted :
  get_gaia_path (fun l => l)
    [mkdf "DES0146-3623_GAIA_DR2_dev1.fits" "cat_tile_gaia"; mkdf "DES0146-3623_GAIA_DR2_v1.fits" "cat_tile_gaia"]
    [mkai "dev" "DES0146-3623_GAIA_DR2_dev1.fits"; mkai "v1" "DES0146-3623_GAIA_DR2_v1.fits"]
    "DES0146-3623" (Some "v1") = Ok "dev/DES0146-3623_GAIA_DR2_dev1.fits".
Proof. vm_compute. reflexivity. Qed.

(** C87, false: that the catalogue belongs to the tile if its name has an underscore. *)
Theorem C87_tile_refuted :
  get_gaia_path (fun l => l) [mkdf "TILEx1_v1.fits" "cat_tile_gaia"] [mkai "p" "TILEx1_v1.fits"]
    "TILE_1" (Some "v1") = Ok "p/TILEx1_v1.fits".
Proof. vm_compute. reflexivity. Qed.

(** C87: a download that succeeds has made the directory of the file and has copied
    it to its place below the source directory. *)
Theorem C87_download :
  forall world user_env archive_path source_dir name effects,
  ordinary_text archive_path -> ordinary_text source_dir ->
  match user_env with Some u => ordinary_text u | None => True end ->
  ~ rooted archive_path -> file_name archive_path name -> name <> "" ->
  download_archive_file world user_env archive_path source_dir = (effects, None) ->
  exists dir command remote destination,
    effects = [Makedirs dir; Shell None command] /\
    (forall e, In e effects -> world e = Ok tt) /\
    words command = ["rsync"; "-av"; "--password-file"; "${DES_RSYNC_PASSFILE}"; remote; destination] /\
    remote = (match user_env with Some u => u ++ "@" | None => "" end
              ++ "${DESREMOTE_RSYNC}/" ++ archive_path)%string /\
    same_place destination (path_join source_dir archive_path) /\
    same_place (dir ++ "/" ++ name) (path_join source_dir archive_path).
Proof.
  intros world user ap sd name effects Ha Hs Hu Hr Hf Hn H. unfold download_archive_file, act in H.
  destruct (world (Makedirs (dirname (path_join sd ap)))) as [[]|e] eqn:E1; [|discriminate].
  destruct (world (Shell None (rsync_command user ap sd))) as [[]|e] eqn:E2; [|discriminate].
  injection H as <-. eexists _, _, _, _. split; [reflexivity|]. split.
  { intros e [<-|[<-|[]]]; assumption. }
  split; [apply rsync_words; assumption|]. split; [reflexivity|].
  pose proof (join_place sd ap (proj1 Hs) Hr) as [J1 J2].
  split; [split; [symmetry; exact J1|tauto]|].
  destruct Hf as [Fn Hf].
  assert (P : exists d, path_join sd ap = (d ++ String "/" name)%string).
  { unfold path_join. destruct sd as [|c s]; [destruct Hs; congruence|].
    destruct (startswith "/" ap) eqn:Es; [now apply starts_slash in Es|].
    destruct Hf as [->|(dir & ->)].
    - destruct (endswith "/" (String c s)) eqn:Ee; [|exists (String c s); reflexivity].
      destruct (ends_slash _ Ee) as (a' & ->). exists a'. rewrite <- append_assoc. reflexivity.
    - destruct (endswith "/" (String c s)).
      + exists (String c s ++ dir)%string. rewrite <- append_assoc. reflexivity.
      + exists (String c s ++ String "/" dir)%string. rewrite <- append_assoc. reflexivity. }
  destruct P as (d & P). exact (directory_place _ d name P Fn Hn).
Qed.

(** C87: if the directory cannot be made nothing is copied, and a failed copy is
    reported. *)
Theorem C87_download_fails :
  forall world user_env archive_path source_dir,
  let '(effects, exc) := download_archive_file world user_env archive_path source_dir in
  (forall x, exc = Some x <-> exists before e, effects = before ++ [e] /\ world e = Raise x /\
                              forall e', In e' before -> world e' = Ok tt) /\
  (exc = None -> length effects = 2%nat).
Proof.
  intros world user ap sd. unfold download_archive_file, act.
  destruct (world (Makedirs _)) as [[]|e1] eqn:E1.
  - destruct (world (Shell _ _)) as [[]|e2] eqn:E2; cbn [fst snd].
    + split; [|reflexivity]. intros x. split; [discriminate|]. intros (b & e & E & X & _).
      destruct b as [|b0 [|b1 b]]; [discriminate| |destruct b; discriminate].
      injection E as <- <-. congruence.
    + split; [|discriminate]. intros x. split.
      * intros E. injection E as <-. eexists [_], _. split; [reflexivity|]. split; [exact E2|].
        intros e' [<-|[]]. exact E1.
      * intros (b & e & E & X & _). destruct b as [|b0 [|b1 b]]; [discriminate| |destruct b; discriminate].
        injection E as <- <-. congruence.
  - split; [|discriminate]. intros x. split.
    + intros E. injection E as <-. exists [], (Makedirs (dirname (path_join sd ap))).
      split; [reflexivity|]. split; [exact E1|]. intros e' [].
    + intros (b & e & E & X & _). destruct b as [|b0 b]; [|destruct b; discriminate]. injection E as <-. congruence.
Qed.

Example C87_download_example :
  ordinary_text "OPS/cal/cat.fits" /\ ordinary_text "/data/sources-r" /\ ordinary_text "someone" /\
  ~ rooted "OPS/cal/cat.fits" /\ file_name "OPS/cal/cat.fits" "cat.fits" /\
  fst (download_archive_file (fun _ => Ok tt) (Some "someone") "OPS/cal/cat.fits" "/data/sources-r")
  = [Makedirs "/data/sources-r/OPS/cal";
     Shell None (rsync_command (Some "someone") "OPS/cal/cat.fits" "/data/sources-r")] /\
  words (rsync_command (Some "someone") "OPS/cal/cat.fits" "/data/sources-r")
  = ["rsync"; "-av"; "--password-file"; "${DES_RSYNC_PASSFILE}";
     "someone@${DESREMOTE_RSYNC}/OPS/cal/cat.fits"; "/data/sources-r/OPS/cal/cat.fits"].
Proof.
  assert (O : forall c, (let n := nat_of_ascii c in
     (48 <=? n) && (n <=? 57) || (65 <=? n) && (n <=? 90) || (97 <=? n) && (n <=? 122) ||
     existsb (Nat.eqb n) [47; 46; 45; 95; 43; 58; 64; 61])%nat = true -> ordinary_char c).
  { intros c H. unfold ordinary_char. rewrite !orb_true_iff, !andb_true_iff, !Nat.leb_le in H.
    destruct H as [[[H|H]|H]|H]; [tauto|tauto|tauto|]. right. right. right.
    apply existsb_exists in H as (m & Hm & E). apply Nat.eqb_eq in E. now subst. }
  repeat split; try discriminate; try (apply O; reflexivity); try (vm_compute; reflexivity).
  - intros (r & E). discriminate.
  - apply free_iff. reflexivity.
  - right. exists "OPS/cal". reflexivity.
Qed.

(** C87, false for a path from the root: the directory that is made is not that of
    the copy. *)
Theorem C87_rooted_path_refuted :
  exists command, fst (download_archive_file (fun _ => Ok tt) None "/arch/cat.fits" "/data")
    = [Makedirs "/arch"; Shell None command] /\ last (words command) "" = "/data//arch/cat.fits".
Proof. eexists. split; [reflexivity|]. vm_compute. reflexivity. Qed.

(** C87, false for a directory with a blank in its name: the shell sees more words. *)
Theorem C87_blank_refuted :
  words (rsync_command None "cat.fits" "/my data")
  = ["rsync"; "-av"; "--password-file"; "${DES_RSYNC_PASSFILE}"; "${DESREMOTE_RSYNC}/cat.fits"; "/my"; "data/cat.fits"].
Proof. vm_compute. reflexivity. Qed.

(** C87: the path of the catalogue in the information of a tile is the place where
    the catalogue has been put. *)
Theorem C87_recorded_catalogue :
  forall (F : Type) (FO : FloatOps F) pow10 piff_rows geom_rows env medsconf tilename band source_dir campaign
    setup in_order files archive clean world user_env fetch_data get_info check dump path (i : info F),
  (forall l, Permutation (in_order l) l) -> no_wildcard tilename ->
  let fetch_stars g := match snd (download_archive_file world user_env g source_dir) with
                       | None => Ok tt | Some e => Raise e end in
  In (Dumped path i)
    (fst (prep_tile pow10 piff_rows geom_rows env medsconf tilename band source_dir campaign setup
       (get_gaia_path in_order files archive tilename None) clean fetch_stars fetch_data get_info check dump false)) ->
  ordinary_text source_dir ->
  (forall dir name, in_archive files archive tilename "v1" dir name ->
     ordinary_text (path_join dir name) /\ ~ rooted (path_join dir name)) ->
  match user_env with Some u => ordinary_text u | None => True end ->
  exists dir name command remote destination,
    in_archive files archive tilename "v1" dir name /\
    dget (in_coadd i) "gaia_stars_file" = Some (VText (path_join source_dir (path_join dir name))) /\
    In (Shell None command) (fst (download_archive_file world user_env (path_join dir name) source_dir)) /\
    world (Shell None command) = Ok tt /\
    words command = ["rsync"; "-av"; "--password-file"; "${DES_RSYNC_PASSFILE}"; remote; destination] /\
    same_place destination (path_join source_dir (path_join dir name)).
Proof.
  intros F FO pow10 piff_rows geom_rows env medsconf tile band sd campaign setup in_order files archive clean
    world user fetch_data get_info check dump path i Ho Ht fetch_stars Hin Hs Hpath Hu.
  assert (Hv : no_wildcard "v1") by (split; apply free_iff; reflexivity).
  unfold prep_tile, step, emit in Hin.
  destruct setup as [u|e]; [|destruct Hin].
  destruct (get_gaia_path in_order files archive tile None) as [g|e] eqn:Eg; [|destruct Hin].
  unfold fetch_stars in Hin. 
  destruct (snd (download_archive_file world user g sd)) as [e|] eqn:Ed; [destruct Hin|].
  destruct fetch_data as [[]|e]; [|cbn in Hin; destruct Hin as [H|[]]; discriminate].
  destruct get_info as [i0|e]; [|cbn in Hin; destruct Hin as [H|[H|[]]]; discriminate].
  destruct campaign as [c|]; [|cbn in Hin; destruct Hin as [H|[H|[]]]; discriminate].
  destruct (add_extra _ _ _ _ _) as [i1|e] eqn:Ei; [|cbn in Hin; destruct Hin as [H|[H|[]]]; discriminate].
  destruct (check i1) as [[]|e] eqn:Ec; [|cbn in Hin; destruct Hin as [H|[H|[]]]; discriminate].
  destruct (info_file env medsconf tile band) as [p|e]; [|cbn in Hin; destruct Hin as [H|[H|[]]]; discriminate].
  assert (i1 = i).
  { destruct (dump i1); cbn in Hin; decompose [or] Hin; try discriminate; try contradiction; congruence. }
  subst i1. clear Hin.
  destruct (C87_catalogue_of_the_tile in_order files archive tile "v1" g Ho Ht Hv Eg) as (dir & name & Ha & ->).
  destruct (Hpath dir name Ha) as [Oa Ra].
  assert (E : download_archive_file world user (path_join dir name) sd
              = (fst (download_archive_file world user (path_join dir name) sd), None)).
  { destruct (download_archive_file _ _ _ _) as [x y]. cbn in *. congruence. }
  unfold download_archive_file, act in E.
  destruct (world (Makedirs (dirname (path_join sd (path_join dir name))))) as [[]|e1] eqn:E1; [|discriminate].
  destruct (world (Shell None (rsync_command user (path_join dir name) sd))) as [[]|e2] eqn:E2; [|discriminate].
  exists dir, name, (rsync_command user (path_join dir name) sd). eexists _, _.
  split; [exact Ha|]. split.
  { apply C75_whole_tile in Ei as [Ei _]. cbn [in_coadd] in Ei.
    apply C75_coadd_entry in Ei as (image & tile' & geo & rows & _ & _ & _ & ->).
    rewrite C75_coadd_entry_values.
    change (dget (coadd_settings (F := F) image geo) "gaia_stars_file") with (@None (val F)). cbv iota.
    rewrite dget_dset, String.eqb_refl. reflexivity. }
  split. { unfold download_archive_file, act. rewrite E1, E2. right. now left. }
  split; [exact E2|]. split; [apply rsync_words; assumption|].
  pose proof (join_place sd (path_join dir name) (proj1 Hs) Ra) as [J1 J2]. split; [symmetry; exact J1|tauto].
Qed.

(** C87: the table with the geometry is written only after the query has succeeded,
    the temporary directory is removed in any case, and failures are reported. *)
Theorem C87_geometry_table :
  forall world tmpdir tilename ofile,
  let query := Shell (Some tmpdir) "easyaccess --db desoper -l sql.txt" in
  let copy := Shell None ("cp " ++ tmpdir ++ "/ctg.fits " ++ ofile)%string in
  let '(effects, exc) := make_coaddtile_geom_fits world tmpdir tilename ofile in
  (In copy effects -> In query effects /\ world query = Ok tt) /\
  (world (Tempdir tmpdir) = Ok tt -> In (Rmtree tmpdir) effects /\ last effects copy = Rmtree tmpdir) /\
  (exc = None <-> forall e, In e effects -> world e = Ok tt) /\
  (exc = None -> In copy effects).
Proof.
  intros world tmpdir tile ofile query copy. unfold make_coaddtile_geom_fits, act. fold query copy.
  destruct (world (Tempdir tmpdir)) as [[]|e0] eqn:E0.
  2:{ cbn. split; [intros [H|[]]; discriminate|]. split; [discriminate|]. split; [|discriminate].
      split; [discriminate|]. intros H. specialize (H _ (or_introl eq_refl)). congruence. }
  assert (D : exists x, world (Rmtree tmpdir) = x) by eauto. destruct D as [x Ex]. rewrite Ex.
  set (w := WriteText _ _).
  destruct (world w) as [[]|e1] eqn:E1; [destruct (world query) as [[]|e2] eqn:E2; [destruct (world copy) as [[]|e3] eqn:E3|]|];
    destruct x as [[]|e4]; cbn [fst snd app].
  all: split; [intros H; unfold copy, query, w in H; cbn in H;
               repeat (destruct H as [H|H]; [discriminate H|]); try contradiction;
               (split; [cbn; tauto|reflexivity])|].
  all: split; [intros _; split; [cbn; tauto|reflexivity]|].
  all: split; [split; [try discriminate|]|try discriminate; intros _; cbn; tauto].
  all: try (intros _ e He; cbn in He; repeat (destruct He as [<-|He]; [assumption|]); contradiction).
  all: try (intros _; reflexivity).
  all: intros H; exfalso.
  all: try (specialize (H (Rmtree tmpdir) ltac:(cbn; tauto)); congruence).
  all: try (specialize (H copy ltac:(cbn; tauto)); congruence).
  all: try (specialize (H query ltac:(cbn; tauto)); congruence).
  all: try (specialize (H w ltac:(cbn; tauto)); congruence).
Qed.

(** C87: the query that is run is the one for the tile, and its answer goes where the
    copy takes it from. *)
Theorem C87_geometry_query :
  forall world tmpdir tilename ofile,
  tmpdir <> "" ->
  let query := Shell (Some tmpdir) "easyaccess --db desoper -l sql.txt" in
  let effects := fst (make_coaddtile_geom_fits world tmpdir tilename ofile) in
  In query effects ->
  exists file text columns rest,
    effects = Tempdir tmpdir :: WriteText file text :: query :: rest /\
    world (Tempdir tmpdir) = Ok tt /\ world (WriteText file text) = Ok tt /\
    same_place file (tmpdir ++ "/sql.txt") /\
    text = (newline ++ "SELECT ID, " ++ columns ++ newline ++ "FROM coaddtile_geom" ++ newline
            ++ "    WHERE tilename='" ++ tilename ++ "';>" ++ tmpdir ++ "/ctg.fits" ++ newline)%string.
Proof.
  intros world tmpdir tile ofile Hd query. unfold make_coaddtile_geom_fits, act. fold query. cbv zeta.
  set (w := WriteText _ _).
  destruct (world (Tempdir tmpdir)) as [[]|e0] eqn:E0; [|intros [H|[]]; discriminate].
  destruct (world w) as [[]|e1] eqn:E1.
  2:{ destruct (world (Rmtree tmpdir)); cbn; intros H; decompose [or] H; try contradiction; discriminate. }
  intros _.
  match goal with |- exists f t c r, ?l = _ /\ _ => assert (P : exists rest, l = Tempdir tmpdir :: w :: query :: rest) end.
  { destruct (world query); [destruct (world (Shell None _))|]; destruct (world (Rmtree tmpdir)); cbn [fst snd app];
      eexists; reflexivity. }
  destruct P as (rest & ->).
  exists (path_join tmpdir "sql.txt"), (geom_query tile tmpdir),
    "PIXELSCALE, NAXIS1, NAXIS2,
    RA_CENT, DEC_CENT,
    RA_SIZE,DEC_SIZE,
    RAC1, RAC2, RAC3, RAC4,
    DECC1, DECC2, DECC3, DECC4,
    RACMIN,RACMAX,DECCMIN,DECCMAX,
    CROSSRA0"%string, rest.
  split; [reflexivity|].
  split; [reflexivity|]. split; [exact E1|]. split.
  - destruct (join_place tmpdir "sql.txt" Hd) as [J1 J2]; [intros (r & H); discriminate|].
    split; [exact J1|tauto].
  - unfold geom_query, newline. cbn [append]. reflexivity.
Qed.

Example C87_geometry_example :
  fst (make_coaddtile_geom_fits (fun _ => Ok tt) "/tmp/x" "DES0146-3623" "geom.fits")
  = [Tempdir "/tmp/x"; WriteText "/tmp/x/sql.txt" (geom_query "DES0146-3623" "/tmp/x");
     Shell (Some "/tmp/x") "easyaccess --db desoper -l sql.txt"; Shell None "cp /tmp/x/ctg.fits geom.fits";
     Rmtree "/tmp/x"].
Proof. reflexivity. Qed.

Print Assumptions C87_catalogue_of_the_tile.
Print Assumptions C87_found_if_there.
Print Assumptions C87_only_one.
Print Assumptions C87_version_refuted.
Print Assumptions C87_tile_refuted.
Print Assumptions C87_download.
Print Assumptions C87_download_fails.
Print Assumptions C87_rooted_path_refuted.
Print Assumptions C87_blank_refuted.
Print Assumptions C87_recorded_catalogue.
Print Assumptions C87_geometry_table.
Print Assumptions C87_geometry_query.
