(** C58, C60, C61, C66: the command line, the fpack seed, logging levels. *)
From Coq Require Import ZArith Bool String Ascii List Lia.
From Verif Require Import Lib.Base Lib.PyStr Lib.PyDict Lib.PyText Model.Cli Spec.DesInfoSpec Spec.CliSpec
  Proofs.PyStrProofs Proofs.DesInfoProofs Proofs.CliProofs.
Import ListNotations.
Open Scope string_scope.
Open Scope list_scope.
Open Scope Z_scope.

(** C58. In a directory, two runs on the same tile with the same configuration
    write the same file exactly if their slice ranges are the same. *)
Theorem C58_names_are_equal_iff_ranges_are :
  forall out config tag r r' tile band p p', directory out ->
  meds_path out config tag r tile band = Ok p -> meds_path out config tag r' tile band = Ok p' ->
  (p = p' <-> same_range r r').
Proof. exact names_iff_ranges. Qed.

(** C58. A path that ends with .fits is the path of the uncompressed file, and
    for one that ends with .fits.fz the compressed file is the one given. *)
Theorem C58_fits_paths_are_used : forall pre config tag r tile band,
  meds_path (pre ++ ".fits")%string config tag r tile band = Ok (pre ++ ".fits")%string /\
  exists p, meds_path (pre ++ ".fits.fz")%string config tag r tile band = Ok p /\
    (p ++ ".fz")%string = (pre ++ ".fits.fz")%string.
Proof.
  intros pre config tag r tile band. split; [apply meds_path_fits|].
  eexists. split; [apply meds_path_fz|]. now rewrite <- append_assoc.
Qed.

(** C58. The name in a directory, for a configuration file <base>.yaml. *)
Theorem C58_name : forall out dir base tag r tile band, directory out -> free_of "/" base ->
  (forall x y, base <> (x ++ ".yaml" ++ y)%string) ->
  forall a b,
  let middle := match tag with None => base | Some t => (base ++ "-" ++ t)%string end in
  let name rend := (tile ++ "_" ++ band ++ "_" ++ middle ++ "_meds-pizza-slices" ++ rend ++ ".fits")%string in
  meds_path out (dir ++ "/" ++ base ++ ".yaml")%string tag None tile band = Ok (path_join out (name "")) /\
  (r = Some (dec a ++ ":" ++ dec b)%string ->
   meds_path out (dir ++ "/" ++ base ++ ".yaml")%string tag r tile band =
     Ok (path_join out (name ("-range" ++ dec_pad 4 a ++ "-" ++ dec_pad 4 b)%string))).
Proof.
  intros out dir base tag r tile band Hd Hf Hy a b middle name.
  assert (Eb : basename (dir ++ "/" ++ base ++ ".yaml")%string = (base ++ ".yaml")%string).
  { symmetry. apply basename_file. split; [|right; exists dir; reflexivity].
    apply free_iff. rewrite all_chars_app. apply free_iff in Hf. rewrite Hf. reflexivity. }
  assert (Em : config_name (dir ++ "/" ++ base ++ ".yaml")%string tag = middle).
  { unfold config_name, middle. rewrite Eb, yaml_removed by exact Hy. reflexivity. }
  split.
  - apply (meds_path_dir _ _ _ _ _ _ _ Hd). exists "". split; [reflexivity|]. now rewrite Em.
  - intros ->. apply (meds_path_dir _ _ _ _ _ _ _ Hd).
    exists ("-range" ++ dec_pad 4 a ++ "-" ++ dec_pad 4 b)%string. split; [|now rewrite Em].
    apply range_end_ok. exists a, b. split; [|reflexivity]. apply split_range. exists (dec a), (dec b).
    assert (F : forall z, all_chars (fun c => negb (Ascii.eqb c ":")) (dec z) = true).
    { intros z. apply (all_chars_impl dec_char); [exact (dec_char_not ":" eq_refl)|apply dec_chars]. }
    split; [|split; apply py_int_dec0].
    change (dec a ++ ":" ++ dec b)%string with (dec a ++ String ":" (dec b))%string.
    rewrite split_on_app by apply F. now rewrite split_on_none by apply F.
Qed.

(** C58. A text that is not a range is refused before any work. *)
Theorem C58_bad_ranges_are_refused : forall out config tag s tile band, directory out ->
  (~ exists a b, reads_range s a b) ->
  meds_path out config tag (Some s) tile band = Raise AssertionError \/
  meds_path out config tag (Some s) tile band = Raise ValueError.
Proof. exact meds_path_range_error. Qed.

(** C58. Different tags do not give different names for all configurations. *)
Theorem C58_tags_are_distinguished_refuted : exists config config' tag,
  config <> config' /\
  meds_path "out" config None None "T" "g" = meds_path "out" config' (Some tag) None "T" "g".
Proof. exists "a-b.yaml", "a.yaml", "b". split; [discriminate|]. reflexivity. Qed.

Example C58_ex :
  meds_path "out" "/c/des-y6.yaml" (Some "v2") (Some "0:100") "DES2122+0001" "g" =
    Ok "out/DES2122+0001_g_des-y6-v2_meds-pizza-slices-range0000-0100.fits" /\
  meds_path "out/" "/c/des-y6.yaml" None None "DES2122+0001" "g" =
    Ok "out/DES2122+0001_g_des-y6_meds-pizza-slices.fits" /\
  meds_path "x.fits.fz" "c.yaml" None (Some "1:2") "T" "g" = Ok "x.fits" /\
  meds_path "out" "c.yaml" None (Some "1-2") "T" "g" = Raise AssertionError /\
  directory "out".
Proof.
  repeat (split; [vm_compute; reflexivity|]). split; apply not_ends; reflexivity.
Qed.

(** C60. The fpack seed is between 1 and 9999: the last four decimal digits of
    the hash value, with 0 replaced by 1. *)
Theorem C60_seed_in_range : forall sha1 s, hex_text (sha1 s) ->
  exists h v, int16 (sha1 s) = Ok h /\ 0 <= h /\ hash_to_int sha1 s = Ok v /\ 1 <= v <= 9999 /\
    (h mod 10000 <> 0 -> v = h mod 10000) /\ (h mod 10000 = 0 -> v = 1).
Proof.
  intros sha1 s H. destruct (int16_ok _ H) as (h & Eh & Hh). exists h.
  unfold hash_to_int. rewrite Eh. cbn [bind]. eexists. split; [reflexivity|]. split; [exact Hh|]. split; [reflexivity|].
  change (10 ^ 4) with 10000. rewrite Z.abs_eq by exact Hh.
  pose proof (Z.mod_pos_bound h 10000 ltac:(lia)). lia.
Qed.

(** C60. The fpack command depends on the tile, the band and the file only. *)
Theorem C60_command : forall sha1 tile band path, hex_text (sha1 (tile ++ band)%string) ->
  exists v, 1 <= v <= 9999 /\ hash_to_int sha1 (tile ++ band)%string = Ok v /\
    fpack_command sha1 tile band path = Ok ("fpack -qz" ++ dec v ++ " 16 " ++ path)%string.
Proof.
  intros sha1 tile band path H. destruct (C60_seed_in_range sha1 _ H) as (h & v & _ & _ & E & Hv & _).
  exists v. split; [exact Hv|]. split; [exact E|]. unfold fpack_command. rewrite E. reflexivity.
Qed.

Example C60_ex :
  hash_to_int (fun _ => "da39a3ee5e6b4b0d3255bfef95601890afd80709") "" = Ok 1305 /\
  hash_to_int (fun _ => "2710") "" = Ok 1 /\ hex_text "2710".
Proof.
  split; [vm_compute; reflexivity|]. split; [vm_compute; reflexivity|]. split; [discriminate|].
  intros [|? [|? [|? [|? [|]]]]] c b E; cbn in E; try discriminate; injection E as; subst; unfold is_hex; cbn; auto 12.
Qed.

(** C61. A new level: the attributes it adds, and nothing else changes. *)
Theorem C61_adds_exactly : forall st name num method m st', method_for name method m ->
  add_logging_level st name num method = Ok st' ->
  dget (module_attrs st) name = None /\ dget (module_attrs st) m = None /\ dget (class_attrs st) m = None /\
  (forall k, dget (module_attrs st') k =
     if String.eqb m k then Some (LogToRoot num)
     else if String.eqb name k then Some (LevelNumber num) else dget (module_attrs st) k) /\
  (forall k, dget (class_attrs st') k =
     if String.eqb m k then Some (LogForLevel num) else dget (class_attrs st) k) /\
  (forall n, level_names st' n = if n =? num then Some name else level_names st n) /\
  (forall k, dget (name_levels st') k = if String.eqb name k then Some num else dget (name_levels st) k).
Proof. exact add_level_ok. Qed.

(** C61. It is added exactly if none of the names is taken. *)
Theorem C61_succeeds_iff_free : forall st name num method m, method_for name method m ->
  ((dget (module_attrs st) name = None /\ dget (module_attrs st) m = None /\ dget (class_attrs st) m = None) <->
   exists st', add_logging_level st name num method = Ok st') /\
  (~ (dget (module_attrs st) name = None /\ dget (module_attrs st) m = None /\ dget (class_attrs st) m = None) ->
   add_logging_level st name num method = Raise AttributeError).
Proof.
  intros st name num method m Hm. split.
  - split.
    + intros (H1 & H2 & H3). exact (add_level_total st name num method m Hm H1 H2 H3).
    + intros (st' & H). destruct (add_level_ok _ _ _ _ _ _ Hm H) as (H1 & H2 & H3 & _). auto.
  - intros N. apply (add_level_raises st name num method m Hm).
    destruct (dget (module_attrs st) name) as [a|]; [exists a; auto|].
    destruct (dget (module_attrs st) m) as [a|]; [exists a; auto|].
    destruct (dget (class_attrs st) m) as [a|]; [exists a; auto|]. exfalso. auto.
Qed.

(** C61. Adding a level again fails, with any number and any method name. *)
Theorem C61_second_call_raises : forall st name num method st' num' method',
  add_logging_level st name num method = Ok st' ->
  add_logging_level st' name num' method' = Raise AttributeError.
Proof.
  intros st name num method st' num' method' H.
  assert (M : forall x, exists m, method_for name x m).
  { intros [[|c s]|]; [exists (lower name); left; auto|exists (String c s); right; split; [reflexivity|discriminate]|
      exists (lower name); left; auto]. }
  destruct (M method) as (m & Hm). destruct (M method') as (m' & Hm').
  destruct (add_level_ok _ _ _ _ _ _ Hm H) as (_ & _ & _ & K & _).
  apply (add_level_raises st' name num' method' m' Hm'). specialize (K name).
  rewrite String.eqb_refl in K. destruct (String.eqb m name); rewrite K; eauto.
Qed.

(** C61. For a name that is its own method name the number is not kept as an
    attribute, against the documentation. *)
Theorem C61_number_is_an_attribute_refuted : exists st name num st',
  add_logging_level st name num None = Ok st' /\ dget (module_attrs st') name = Some (LogToRoot num).
Proof.
  exists (mklogging [] [] (fun _ => None) []), "trace", 5. eexists. split; [reflexivity|]. reflexivity.
Qed.

(** C61. The number of an existing level is taken over. *)
Theorem C61_numbers_are_protected_refuted : exists st name num st',
  level_names st 20 = Some "INFO" /\ add_logging_level st name num None = Ok st' /\
  level_names st' 20 = Some name /\ name <> "INFO".
Proof.
  exists (mklogging [("INFO", LevelNumber 20)] [("info", Other 0)] (fun n => if n =? 20 then Some "INFO" else None)
            [("INFO", 20)]), "NOTE", 20.
  eexists. split; [reflexivity|]. split; [reflexivity|]. split; [reflexivity|discriminate].
Qed.

Example C61_ex : match add_logging_level
    (mklogging [("DEBUG", LevelNumber 10)] [("debug", Other 1)] (fun n => if n =? 10 then Some "DEBUG" else None) [("DEBUG", 10)])
    "DEBUG_PLOT" 5 None with
  | Ok st => module_attrs st = [("DEBUG", LevelNumber 10); ("DEBUG_PLOT", LevelNumber 5); ("debug_plot", LogToRoot 5)] /\
             class_attrs st = [("debug", Other 1); ("debug_plot", LogForLevel 5)] /\ level_names st 5 = Some "DEBUG_PLOT"
  | Raise _ => False
  end.
Proof. vm_compute. repeat split; reflexivity. Qed.

(** C66. The uncompressed file is kept only in debug mode without a temporary
    directory. *)
Theorem C66_uncompressed_file_is_kept : forall level use_tmpdir tmpdir make,
  remove_fits_file level (main_tmpdir use_tmpdir tmpdir make) = false <->
  upper level = "DEBUG" /\ use_tmpdir = false /\ tmpdir = None.
Proof.
  intros level use_tmpdir tmpdir make. unfold remove_fits_file, main_tmpdir.
  destruct (String.eqb_spec (upper level) "DEBUG") as [E|E]; cbn [andb].
  - destruct use_tmpdir, tmpdir; cbn; split; try discriminate; intuition (try discriminate).
  - split; [discriminate|]. tauto.
Qed.

(** C66. A directory is made exactly if it is asked for, inside the given one. *)
Theorem C66_temporary_directory : forall use_tmpdir tmpdir make,
  main_tmpdir use_tmpdir tmpdir make =
    match use_tmpdir, tmpdir with
    | false, None => None
    | _, _ => Some (make tmpdir)
    end.
Proof. intros [] [t|] make; reflexivity. Qed.

Example C66_ex : remove_fits_file "debug" (main_tmpdir false None (fun _ => "/tmp/x")) = false /\
  remove_fits_file "Debug" (main_tmpdir true None (fun _ => "/tmp/x")) = true /\
  remove_fits_file "info" None = true.
Proof. vm_compute. repeat split; reflexivity. Qed.

Print Assumptions C58_names_are_equal_iff_ranges_are.
Print Assumptions C58_fits_paths_are_used.
Print Assumptions C58_name.
Print Assumptions C58_bad_ranges_are_refused.
Print Assumptions C58_tags_are_distinguished_refuted.
Print Assumptions C60_seed_in_range.
Print Assumptions C60_command.
Print Assumptions C61_adds_exactly.
Print Assumptions C61_succeeds_iff_free.
Print Assumptions C61_second_call_raises.
Print Assumptions C61_number_is_an_attribute_refuted.
Print Assumptions C61_numbers_are_protected_refuted.
Print Assumptions C66_uncompressed_file_is_kept.
Print Assumptions C66_temporary_directory.
