(** C85: with processes that have caches, the output does not depend on the number of
    processes, on the order in which they work, or on the caches. *)
From Coq Require Import ZArith List Bool String Reals Permutation Lia.
From Coq Require Import List.
From Verif Require Import Lib.Base Lib.Floats Model.SliceRange Model.Jobs Model.Cache Model.SeWcs Model.SliceInputs
  Model.Coadd Model.Writer Model.ObjectData Model.SingleSlice Model.Epoch Model.Whole Model.Process Model.Sched Model.Pool
  Spec.WriterSpec Spec.RunSpec Spec.SeWcsSpec Spec.ProcessSpec Spec.PoolSpec
  Proofs.SchedProofs Proofs.SliceInputsProofs Proofs.ProcessProofs Proofs.PoolProofs
  Props.PropRun Props.PropSingleSlice Props.PropWhole Props.PropProcess.
Import ListNotations.
Open Scope string_scope.
Open Scope list_scope.
Open Scope Z_scope.

Section Claims.
Context (F : Type) (FO : FloatOps F) (P RNG : Type) (t : Whole.tile F P)
  (disk_pixels : hdu_name -> result (img F)) (disk_masks : hdu_name -> result (img Z))
  (libs : externals (F := F) (RNG := RNG)) (images0 : list (image F P))
  (sc : se_config (F := F)) (coadding_weight : string) (ti : tile_info (F := F))
  (i2s : F -> F -> result (F * F)) (jac : F -> F -> result (F * F * F * F))
  (central buffer width psf_box offset : Z) (objs : list (ObjectData.object (F := F))) (n_extra : Z)
  (zero : @pixel F) (cast : string -> @pixel F -> @pixel F) (isneg : @pixel F -> bool) (nsrc seed : Z) (obj0 : Z -> @obj F)
  (rng : Type) (init : Z -> rng) (randint : rng -> Z -> Z -> Z * rng).

Notation num := (Z.of_nat (length objs)).
Notation box := (central + 2 * buffer).
Notation ss := (snd (all_seeds rng init randint seed num nsrc n_extra)).
(** A slice in a process with caches of sizes [sz] and hashes [hash], ... *)
Notation work hash sz := (fun seeds : list src_seeds => m_single_slice hash sz t disk_pixels disk_masks (tile_externals t libs)
  (seeded_images images0 seeds) sc coadding_weight ti objs n_extra).
(** ... and the functions without caches, that the other properties are about. *)
Notation plain := (fun (seeds : list src_seeds) it =>
  coadd_single_slice (tile_externals t libs) sc coadding_weight ti objs n_extra seeds it).
(** The WCS of the images [names] have been loaded before the processes start. *)
Notation completes hash sz names := (run_with_memory_completes pixel (list epoch_row) zero cast isneg box psf_box n_extra
  num nsrc seed obj0 rng init randint (caches F P) (work hash sz) forgets_entries (after_image_info sz t names)).
Notation raises hash sz names := (run_with_memory_raises pixel (list epoch_row) zero cast isneg box psf_box n_extra
  num nsrc seed obj0 rng init randint (caches F P) (work hash sz) forgets_entries (after_image_info sz t names)).
(** The conditions of C84, for the images with the seeds of the run. *)
Notation fit hash := (hashes_tell_apart t (seeded_images images0 ss) hash).

Section Given.
Hypothesis squares : squares_agree F.
Hypothesis masks : masks_of_one_ccd t (seeded_images images0 ss).
Hypothesis entries : t_entries t = map (entry_of disk_pixels disk_masks) images0.
Hypothesis ids : NoDup (map (@i_id F P) images0).

Notation good := (ProcessProofs.good t disk_pixels disk_masks (seeded_images images0 ss) ti).

Lemma pool_work_good hash sz : fit hash -> forall i m, good m ->
  match fst (work hash sz ss i m), plain ss i with
  | Ok a, Ok b => a = b
  | Raise _, Raise _ => True
  | _, _ => False
  end /\ good (snd (work hash sz ss i m)).
Proof.
  intros Hh i m G.
  assert (H : follows good eq (fun sz => work hash sz ss i) (plain ss i)).
  { eapply follows_single_slice; try eassumption. reflexivity. }
  destruct H as (r & Hr & Hs). destruct (Hs sz m G) as [E G']. split; [|exact G'].
  rewrite E. destruct r, (plain ss i); cbn in Hr; auto.
Qed.

(** A run by processes with caches completes with exactly the outputs with which a run
    without caches does. *)
Theorem C85_caches_change_nothing : forall hash sz names arg h o, fit hash ->
  completes hash sz names arg h o <->
  run_completes pixel (list epoch_row) zero cast isneg box psf_box n_extra num nsrc seed obj0 rng init randint plain
    arg h o.
Proof.
  intros hash sz names arg h o Hh.
  exact (memory_completes pixel (list epoch_row) zero cast isneg box psf_box n_extra num nsrc seed obj0 rng init randint
    (caches F P) (work hash sz) forgets_entries (after_image_info sz t names) plain good (pool_work_good hash sz Hh)
    (good_forgets t disk_pixels disk_masks (seeded_images images0 ss) ti) forgets_refl
    (good_after t disk_pixels disk_masks (seeded_images images0 ss) ti sz names) arg h o).
Qed.

(** It raises an exception when one without caches does. *)
Theorem C85_caches_hide_no_errors : forall hash sz names arg h, fit hash ->
  raises hash sz names arg h <->
  run_raises pixel (list epoch_row) zero cast isneg box psf_box n_extra num nsrc seed obj0 rng init randint plain
    arg h.
Proof.
  intros hash sz names arg h Hh.
  exact (memory_raises pixel (list epoch_row) zero cast isneg box psf_box n_extra num nsrc seed obj0 rng init randint
    (caches F P) (work hash sz) forgets_entries (after_image_info sz t names) plain good (pool_work_good hash sz Hh)
    (good_forgets t disk_pixels disk_masks (seeded_images images0 ss) ti) forgets_refl
    (good_after t disk_pixels disk_masks (seeded_images images0 ss) ti sz names) arg h).
Qed.

Section Outputs.
Hypothesis extra : 0 <= n_extra.
Hypothesis objects : build_object_data i2s jac central buffer width psf_box offset = Ok objs.

Lemma pool_labels : labelled pixel (list epoch_row) box psf_box n_extra num plain.
Proof.
  exact (C72_results_are_labelled F FO RNG (tile_externals t libs) sc coadding_weight ti i2s jac central buffer width
    psf_box offset objs n_extra extra objects).
Qed.

(** Two runs have the same output, whatever the number of processes and chunks, the
    order of the slices, the schedule and the size of the queue of each, the sizes of its caches,
    what was in them when the processes started, and its hash function. *)
Theorem C85_same_output : forall hash1 hash2 sz1 sz2 names1 names2 arg h1 h2 o1 o2,
  fit hash1 -> fit hash2 -> forward arg -> valid_how h1 -> valid_how h2 ->
  completes hash1 sz1 names1 arg h1 o1 ->
  completes hash2 sz2 names2 arg h2 o2 ->
  same_output pixel (list epoch_row) o1 o2.
Proof.
  intros hash1 hash2 sz1 sz2 names1 names2 arg h1 h2 o1 o2 F1 F2 Hf V1 V2 C1 C2.
  apply (C85_caches_change_nothing _ _ _ _ _ _ F1) in C1. apply (C85_caches_change_nothing _ _ _ _ _ _ F2) in C2.
  exact (C31_same_output F FO _ _ zero cast isneg box psf_box n_extra num nsrc seed obj0 rng init randint plain extra
    (Nat2Z.is_nonneg (length objs)) pool_labels arg h1 h2 o1 o2 Hf V1 V2 C1 C2).
Qed.

(** When one completes, the other one can, with the same output, ... *)
Theorem C85_all_complete : forall hash1 hash2 sz1 sz2 names1 names2 arg h1 h2 o1,
  fit hash1 -> fit hash2 -> forward arg -> valid_how h1 -> valid_how h2 ->
  completes hash1 sz1 names1 arg h1 o1 ->
  exists o2, completes hash2 sz2 names2 arg h2 o2 /\ same_output pixel (list epoch_row) o1 o2.
Proof.
  intros hash1 hash2 sz1 sz2 names1 names2 arg h1 h2 o1 F1 F2 Hf V1 V2 C1.
  apply (C85_caches_change_nothing _ _ _ _ _ _ F1) in C1.
  destruct (C31_all_complete F FO _ _ zero cast isneg box psf_box n_extra num nsrc seed obj0 rng init randint plain extra
    (Nat2Z.is_nonneg (length objs)) pool_labels arg h1 h2 o1 Hf V1 V2 C1) as (o2 & C2 & S). exists o2. split; [|exact S].
  apply (C85_caches_change_nothing _ _ _ _ _ _ F2). exact C2.
Qed.

(** ... and it cannot raise an exception. *)
Theorem C85_same_outcome : forall hash1 hash2 sz1 sz2 names1 names2 arg h1 h2 o2,
  fit hash1 -> fit hash2 -> forward arg -> valid_how h1 -> valid_how h2 ->
  raises hash1 sz1 names1 arg h1 ->
  ~ completes hash2 sz2 names2 arg h2 o2.
Proof.
  intros hash1 hash2 sz1 sz2 names1 names2 arg h1 h2 o2 F1 F2 Hf V1 V2 C1 C2.
  apply (C85_caches_hide_no_errors _ _ _ _ _ F1) in C1. apply (C85_caches_change_nothing _ _ _ _ _ _ F2) in C2.
  exact (C31_same_outcome F FO _ _ zero cast isneg box psf_box n_extra num nsrc seed obj0 rng init randint plain extra
    (Nat2Z.is_nonneg (length objs)) pool_labels arg h1 h2 o2 Hf V1 V2 C1 C2).
Qed.
End Outputs.

(** The pool of processes never hangs, and from everywhere it can get to an end. *)
Theorem C85_ends : forall (outp : Type) (process : outp -> @results F (@pixel F) (list (@epoch_row F)) -> result outp)
    hash sz names chunks n_jobs o0 cap s,
  fit hash -> (1 <= cap)%nat -> (1 <= n_jobs)%nat ->
  psteps _ _ _ _ (work hash sz ss) process forgets_entries cap
    (pstart n_jobs chunks (length (concat chunks)) o0 (after_image_info sz t names)) s ->
  exists u, psteps _ _ _ _ (work hash sz ss) process forgets_entries cap s u /\
    ((exists o, ps_main u = Done o) \/ (exists o, ps_main u = Raised o)).
Proof.
  intros outp process hash sz names chunks n_jobs o0 cap s Hh Hc Hj H.
  pose proof (good_forgets t disk_pixels disk_masks (seeded_images images0 ss) ti) as Gf.
  pose proof (good_after t disk_pixels disk_masks (seeded_images images0 ss) ti sz names) as G0.
  destruct (psteps_steps _ _ _ _ _ _ _ (plain ss) good (pool_work_good hash sz Hh) Gf _ _ _ H
    (start_good _ _ _ _ good _ _ _ _ _ G0)) as [A G].
  rewrite erase_start in A.
  destruct (C32_ends _ _ _ _ _ chunks n_jobs o0 cap _ Hc Hj A) as (u & B & D).
  destruct (steps_psteps _ _ _ _ (work hash sz ss) _ forgets_entries (plain ss) good (pool_work_good hash sz Hh) Gf
    forgets_refl _ _ _ G B) as (u' & B' & <-).
  exists u'. split; [exact B'|exact D].
Qed.

(** No execution is longer than this. *)
Theorem C85_bounded : forall (outp : Type) (process : outp -> @results F (@pixel F) (list (@epoch_row F)) -> result outp)
    hash sz names chunks n_jobs n o0 cap k s,
  fit hash ->
  pnsteps _ _ _ _ (work hash sz ss) process forgets_entries cap k
    (pstart n_jobs chunks n o0 (after_image_info sz t names)) s ->
  (k <= 4 * length (concat chunks) + 2 * length chunks + 1)%nat.
Proof.
  intros outp process hash sz names chunks n_jobs n o0 cap k s Hh H.
  pose proof (good_forgets t disk_pixels disk_masks (seeded_images images0 ss) ti) as Gf.
  pose proof (good_after t disk_pixels disk_masks (seeded_images images0 ss) ti sz names) as G0.
  destruct (pnsteps_nsteps _ _ _ _ _ _ _ (plain ss) good (pool_work_good hash sz Hh) Gf _ _ _ _ H
    (start_good _ _ _ _ good _ _ _ _ _ G0)) as [A _].
  rewrite erase_start in A. exact (C32_bounded _ _ _ _ _ _ _ _ _ _ _ _ A).
Qed.
End Given.
End Claims.

(** Concrete: slices 2 and 3 of the tile of C82 and C84. *)
Definition ex_pool_completes (sz : sizes) (names : list hdu_name) objs :=
  run_with_memory_completes pixel (list epoch_row) (PF fzero) (fun _ v => v)
    (fun v => match v with PF x => fltb x fzero | PI z => z <? 0 end)
    3 3 0 (Z.of_nat (length objs)) 3 50 demo_obj0 Z (fun s => s) (fun g _ _ => (g, g + 1)) (caches f64 nat)
    (fun seeds => m_single_slice ex_hash sz (ex_tile ex_files) ex_disk ex_disk_masks (tile_externals (ex_tile ex_files) ex_ext)
       (seeded_images ex_files seeds) ex_config "noise" (SingleSlice.mktile None (Some (4, 4)) 0) objs 0)
    forgets_entries (after_image_info sz (ex_tile ex_files) names) (SStr "2:4").

Definition ex_pool_serial objs : result (@out f64 pixel (list epoch_row)) :=
  ' (plan, ss) <- make_plan Z (fun s => s) (fun g _ _ => (g, g + 1)) (fun l => l) (SStr "2:4")
                    (Z.of_nat (length objs)) 50 3 0 1 None ;;
  match plan with
  | Serial todo =>
      pserial _ _ _ _
        (m_single_slice ex_hash code_sizes (ex_tile ex_files) ex_disk ex_disk_masks (tile_externals (ex_tile ex_files) ex_ext)
           (seeded_images ex_files ss) ex_config "noise" (SingleSlice.mktile None (Some (4, 4)) 0) objs 0)
        (process_one pixel (fun _ v => v) (fun v => match v with PF x => fltb x fzero | PI z => z <? 0 end) _ 9 9)
        (init_out pixel (PF fzero) _ (Z.of_nat (length objs)) 3 3 0 demo_obj0) todo
        (after_image_info code_sizes (ex_tile ex_files) [])
  | Parallel _ _ _ => Raise OtherError
  end.

Example C85_example_serial :
  match @ex_whole_objects f64 F64Ops with
  | Ok objs =>
      match ex_pool_serial objs with
      | Ok o => (o_nepoch (o_obj _ _ o 2) =? 2) && (o_nepoch (o_obj _ _ o 3) =? 2) && (length objs =? 4)%nat
      | Raise _ => false
      end
  | Raise _ => false
  end = true.
Proof. vm_compute. reflexivity. Qed.

(** The serial run with the caches of the code completes, and so does one with two processes
    that have no caches, with the same output. Two images are used for slice 3. *)
Example C85_example :
  exists objs o1 o2, @ex_whole_objects f64 F64Ops = Ok objs /\
    ex_pool_completes code_sizes [] objs serial_how o1 /\
    ex_pool_completes no_caches [("one", "sci")] objs parallel_how o2 /\
    same_output pixel (list epoch_row) o1 o2 /\ o_nepoch (o_obj _ _ o1 3) = 2.
Proof.
  pose proof C85_example_serial as H. destruct ex_whole_objects as [objs|] eqn:Eo; [|discriminate].
  destruct (ex_pool_serial objs) as [o1|] eqn:Es; [|discriminate].
  rewrite !andb_true_iff, !Z.eqb_eq, Nat.eqb_eq in H. destruct H as [[_ H3] Hl].
  assert (C1 : ex_pool_completes code_sizes [] objs serial_how o1).
  { unfold ex_pool_serial in Es. apply SliceInputsProofs.bind_ok in Es as ([plan ss] & Hp & Es).
    destruct plan as [todo|]; [|discriminate]. exists (Serial todo), ss. split; [exact Hp|exact Es]. }
  destruct (@C84_example_conditions f64 F64Ops) as (E1 & E2 & E3 & E4). unfold ex_seeds in E1, E2.
  destruct (C85_all_complete f64 F64Ops nat nat (ex_tile ex_files) ex_disk ex_disk_masks ex_ext ex_files ex_config "noise"
    (SingleSlice.mktile None (Some (4, 4)) 0) (cw_image2sky (t_coadd (@ex_whole f64 F64Ops))) (fun x y => Ok (x, y, y, x))
    1 1 4 3 0 objs 0 (PF fzero) (fun _ v => v)
    (fun v => match v with PF x => fltb x fzero | PI z => z <? 0 end) 3 50 demo_obj0 Z (fun s => s) (fun g _ _ => (g, g + 1))
    C84_squares_float) with (hash1 := @ex_hash f64) (hash2 := @ex_hash f64) (sz1 := code_sizes) (sz2 := no_caches)
      (names1 := @nil hdu_name) (names2 := [("one", "sci")]) (arg := SStr "2:4") (h1 := serial_how) (h2 := parallel_how)
      (o1 := o1) as (o2 & C2 & S);
    try rewrite Hl; try assumption; try exact I; try exact serial_valid; try exact parallel_valid; try lia; try exact Eo.
  - rewrite <- Hl. exact C1.
  - exists objs, o1, o2. split; [reflexivity|]. split; [exact C1|]. split; [|split; [exact S|exact H3]].
    exact C2.
Qed.

Print Assumptions C85_caches_change_nothing.
Print Assumptions C85_caches_hide_no_errors.
Print Assumptions C85_same_output.
Print Assumptions C85_all_complete.
Print Assumptions C85_same_outcome.
Print Assumptions C85_ends.
Print Assumptions C85_bounded.
