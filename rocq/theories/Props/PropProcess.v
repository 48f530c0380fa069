(** C84: the answer for a slice does not depend on what the process did before. *)
From Coq Require Import ZArith List Bool String Reals Lra Lia SpecFloat.
From Coq Require Import List.
From Verif Require Import Lib.Base Lib.Floats Model.Affine Model.Jobs Model.Cache Model.SeWcs Model.SeImage
  Model.SliceInputs Model.Coadd Model.Writer Model.SingleSlice Model.Epoch Model.Whole Model.Process
  Spec.SeWcsSpec Spec.ProcessSpec Proofs.ProcessProofs Props.PropSingleSlice Props.PropWhole.
Import ListNotations.
Open Scope string_scope.
Open Scope list_scope.
Open Scope Z_scope.

Section Claims.
Context (F : Type) (FO : FloatOps F) (P RNG : Type)
  (hash : identity F P -> Z) (t : Whole.tile F P)
  (disk_pixels : hdu_name -> result (img F)) (disk_masks : hdu_name -> result (img Z))
  (libs : externals (F := F) (RNG := RNG)) (images0 : list (image F P)) (seeds : list src_seeds)
  (sc : se_config (F := F)) (coadding_weight : string) (ti : tile_info (F := F)) (objs : list (ObjectData.object (F := F))) (n_extra : Z).
Notation images := (seeded_images images0 seeds).
Notation work := (fun sz : sizes =>
  m_single_slice hash sz t disk_pixels disk_masks (tile_externals t libs) images sc coadding_weight ti objs n_extra).

(** A process works on slices in any order and clears its caches at any time; the caches
    have any sizes. Its answers are those of a new process without caches, exceptions
    included. *)
Theorem C84_history_does_not_matter : forall sz steps,
  squares_agree F ->
  hashes_tell_apart t images hash ->
  masks_of_one_ccd t images ->
  t_entries t = map (entry_of disk_pixels disk_masks) images0 ->
  NoDup (map (@i_id F P) images0) ->
  life (work sz) steps empty = map (fun item => fst (work no_caches item empty)) (items_of steps).
Proof.
  intros sz steps H1 H2 H3 H4 H5.
  refine (proj1 (no_history t disk_pixels disk_masks images ti work
    (coadd_single_slice (tile_externals t libs) sc coadding_weight ti objs n_extra seeds) sz steps _)).
  intros item. eapply follows_single_slice; try eassumption. reflexivity.
Qed.

(** So two processes, with caches of different sizes and different histories, agree on
    every slice that both work on. *)
Theorem C84_processes_agree : forall sz sz' steps steps' k k' item,
  squares_agree F ->
  hashes_tell_apart t images hash ->
  masks_of_one_ccd t images ->
  t_entries t = map (entry_of disk_pixels disk_masks) images0 ->
  NoDup (map (@i_id F P) images0) ->
  nth_error (items_of steps) k = Some item ->
  nth_error (items_of steps') k' = Some item ->
  exists r, nth_error (life (work sz) steps empty) k = Some r /\
            nth_error (life (work sz') steps' empty) k' = Some r.
Proof.
  intros sz sz' steps steps' k k' item H1 H2 H3 H4 H5 E E'.
  exists (fst (work no_caches item empty)).
  rewrite !C84_history_does_not_matter by assumption.
  split; [exact (map_nth_error (fun item => fst (work no_caches item empty)) _ _ E)
         |exact (map_nth_error (fun item => fst (work no_caches item empty)) _ _ E')].
Qed.

(** The answers are those of the functions without caches that the other properties are
    about (C71, C72, C82); where one raises an exception so does the other. *)
Theorem C84_answers : forall sz steps,
  squares_agree F ->
  hashes_tell_apart t images hash ->
  masks_of_one_ccd t images ->
  t_entries t = map (entry_of disk_pixels disk_masks) images0 ->
  NoDup (map (@i_id F P) images0) ->
  Forall2 same_answer (life (work sz) steps empty)
    (map (coadd_single_slice (tile_externals t libs) sc coadding_weight ti objs n_extra seeds) (items_of steps)).
Proof.
  intros sz steps H1 H2 H3 H4 H5.
  refine (proj2 (no_history t disk_pixels disk_masks images ti work
    (coadd_single_slice (tile_externals t libs) sc coadding_weight ti objs n_extra seeds) sz steps _)).
  intros item. eapply follows_single_slice; try eassumption. reflexivity.
Qed.
End Claims.

(** The condition on the numbers holds for the real numbers and for the floats: 0.0 and
    -0.0 are equal keys and have the same square. *)
Theorem C84_squares_real : squares_agree R.
Proof.
  intros a b. cbn. unfold Reqb. destruct (Req_EM_T a b) as [->|]; [reflexivity|discriminate].
Qed.

Theorem C84_squares_float : squares_agree f64.
Proof.
  intros a b H. cbn in H |- *. unfold SFeqb, SFcompare in H.
  destruct a as [s|s| |s m e], b as [s'|s'| |s' m' e']; try discriminate;
    try (destruct s, s'; try discriminate; reflexivity); try (destruct s; discriminate); try (destruct s'; discriminate).
  assert (E : s = s' /\ m = m' /\ e = e').
  { destruct s, s'; try discriminate; destruct (Z.compare e e') eqn:Ee; try discriminate;
      apply Z.compare_eq in Ee; subst e'; destruct (Pos.compare_cont Eq m m') eqn:Em; try discriminate;
      apply Pos.compare_eq in Em; subst m'; auto. }
  destruct E as (-> & -> & ->). reflexivity.
Qed.

(** Concrete: the tile of C82 with its images in files. *)
Section Concrete.
Context {F : Type} {FO : FloatOps F}.
Definition ex_file (ccd : Z) (name mask : string) (id flags : Z) (a : option (affine F)) : image F nat :=
  mkimage id flags 1 (SeWcs.mksrc None None None None None None a (Some 5%nat) (Some (17, 17)))
    (name, "sci") (name, "bkg") (name, "wgt") (mask, "msk") ccd (fofZ 30) [] 0.
Definition ex_disk (k : hdu_name) : result (img F) :=
  let '(name, ext) := k in
  if String.eqb ext "bkg" then Ok (full 17 17 fone)
  else if String.eqb name "one" then
    Ok (if String.eqb ext "sci" then mkimg 17 17 (fun r c => fofZ (2 * r + c + 1)) else full 17 17 fone)
  else if String.eqb name "three" then
    Ok (if String.eqb ext "sci" then full 17 17 (fofZ 4) else full 17 17 (fofZ 3))
  else Raise IOError.
Definition ex_disk_masks (k : hdu_name) : result (img Z) :=
  if String.eqb (fst k) "two" then Raise IOError else Ok (full 17 17 0).
Definition ex_files : list (image F nat) :=
  [ex_file 7 "one" "one" 1 0 (Some ex_affine); ex_file 7 "two" "two" 2 4 None;
   ex_file 7 "three" "three" 3 0 (Some ex_affine)].
Definition ex_tile (files : list (image F nat)) : Whole.tile F nat :=
  Whole.mktile ex_tile_world (t_options ex_whole) (map (entry_of ex_disk ex_disk_masks) files)
    (t_coadd ex_whole) 0 ex_libs 4 1.
Definition ex_hash (id : identity F nat) : Z := i_id (id_source_info id).
Definition ex_process (hash : identity F nat -> Z) (files : list (image F nat)) (sz : sizes) objs :=
  m_single_slice hash sz (ex_tile files) ex_disk ex_disk_masks (tile_externals (ex_tile files) ex_ext)
    (seeded_images files ex_seeds) ex_config "noise" (SingleSlice.mktile None (Some (4, 4)) 0) objs 0.

(** The conditions are met. *)
Example C84_example_conditions :
  hashes_tell_apart (ex_tile ex_files) (seeded_images ex_files ex_seeds) ex_hash /\
  masks_of_one_ccd (ex_tile ex_files) (seeded_images ex_files ex_seeds) /\
  t_entries (ex_tile ex_files) = map (entry_of ex_disk ex_disk_masks) ex_files /\
  NoDup (map (@i_id F nat) ex_files).
Proof.
  assert (Es : ex_seeds = [([54], 55); ([56], 57); ([58], 59)]) by reflexivity. rewrite Es.
  split; [|split; [|split; [reflexivity|]]].
  - intros id id' (i & m & W & Hi & HW & _ & ->) (i' & m' & W' & Hi' & HW' & _ & ->) E. cbn in E.
    cbn in Hi, Hi', HW, HW'.
    destruct Hi as [<-|[<-|[<-|[]]]], Hi' as [<-|[<-|[<-|[]]]]; cbn in E; try discriminate; clear E;
      (inversion HW as [| | |a Ha|]; subst; inversion HW' as [| | |a' Ha'|]; subst; cbn in Ha, Ha'; cbn;
       split; congruence).
  - intros _ i i' Hi Hi' _. cbn in Hi, Hi'.
    destruct Hi as [<-|[<-|[<-|[]]]], Hi' as [<-|[<-|[<-|[]]]]; reflexivity.
  - cbn. repeat constructor; cbn; intuition congruence.
Qed.
End Concrete.

(** A process that works twice on slice 3, the second time with what is in the caches.
    The pixel is that of C82. *)
Example C84_example :
  match @ex_whole_objects f64 F64Ops with
  | Ok objs =>
      match life (ex_process ex_hash ex_files code_sizes objs) [Work (3, 50); Work (3, 50)] empty with
      | [Ok r; Ok r'] =>
          match px (r_image _ _ r') 2 1 with
          | PF v => fltb (fabs (fsub (fmul v (fofZ 4)) (fofZ (2 * 2 + 1 + 21)))) (fdec 1 6)
          | _ => false
          end && (length (r_weights _ _ r) =? 2)%nat && (length (r_weights _ _ r') =? 2)%nat
      | _ => false
      end
  | Raise _ => false
  end = true.
Proof. vm_compute. reflexivity. Qed.

(** ** What the conditions are for *)

(** Two images whose objects have the same hash: the first one lies elsewhere on the
    sky. Without caches the slice has one image; with caches the second image gets the
    sky bounds of the first one and is passed over. *)
Definition ex_far : affine f64 := mk_affine fone fzero fzero fone (fofZ 400) (fofZ 4) fone.
Definition ex_colliding : list (image f64 nat) :=
  [ex_file 7 "one" "one" 1 0 (Some ex_far); ex_file 7 "three" "three" 3 0 (Some ex_affine)].

Theorem C84_needs_hashes_refuted :
  match @ex_whole_objects f64 F64Ops with
  | Ok objs =>
      match fst (ex_process (fun _ => 0) ex_colliding no_caches objs (3, 50) empty),
            life (ex_process (fun _ => 0) ex_colliding code_sizes objs) [Work (3, 50)] empty with
      | Ok r, [Ok r'] => (length (r_weights _ _ r) =? 1)%nat && (length (r_weights _ _ r') =? 0)%nat
      | _, _ => false
      end
  | Raise _ => false
  end = true.
Proof. vm_compute. reflexivity. Qed.

(** Two images of CCDs 2 and 1 with one mask file: pixel (100, 5) has a tape bump on CCD 2
    but not on CCD 1. *)
Definition ex_world_masks (k : hdu_name) : result (img Z) := Ok (full 120 17 0).
Definition ex_world_pixels (k : hdu_name) : result (img f64) := Ok (full 120 17 fone).
Theorem C84_needs_own_masks_refuted :
  let set_slice i := m_set_slice code_sizes (ex_tile ex_files) ex_world_pixels ex_world_masks i (mkzb 100 103 5 8) in
  let ccd2 := ex_file 2 "two" "shared" 2 0 (Some ex_affine) in
  let ccd1 := ex_file 1 "one" "shared" 1 0 (Some ex_affine) in
  match set_slice ccd1 empty, set_slice ccd1 (snd (set_slice ccd2 empty)) with
  | (Ok s, _), (Ok s', _) => (px (SeImage.sl_bmask s) 0 0 =? 0) && (px (SeImage.sl_bmask s') 0 0 =? 16384)
  | _, _ => false
  end = true.
Proof. vm_compute. reflexivity. Qed.

Print Assumptions C84_history_does_not_matter.
Print Assumptions C84_processes_agree.
Print Assumptions C84_answers.
Print Assumptions C84_squares_real.
Print Assumptions C84_squares_float.
Print Assumptions C84_needs_hashes_refuted.
Print Assumptions C84_needs_own_masks_refuted.
