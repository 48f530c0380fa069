(** C94: runs of the command line tool on different ranges of one tile, at the same time. *)
From Coq Require Import ZArith List Bool Arith Lia String.
From Verif Require Import Lib.Base Lib.PyStr Model.Cli Model.Files Model.Runs Spec.DesInfoSpec Spec.CliSpec Spec.RunsSpec
  Spec.RunsCliSpec Proofs.DesInfoProofs Proofs.CliProofs Proofs.RunsProofs Proofs.RunsCliProofs.
Import ListNotations.
Open Scope string_scope.

(** C94: runs with one output directory, tile, band, configuration and tag, whose ranges of
    slices are all different, do what each does alone, whatever temporary directories they
    have (one for all, one for each, or none). *)
Theorem C94_parallel_ranges :
  forall (C : Type) (out config : string) (tag : option string) (tile band : string)
    (ranges : list (option string)) (s : fsys C) (jobs : list (job C)) (schedule : list nat)
    (i : nat) (j : job C) (r : result unit),
  directory out -> on_ranges out config tag tile band ranges jobs -> different_ranges ranges ->
  tmpdirs_exist s jobs -> nth_error jobs i = Some j ->
  ended (exec (start s jobs) schedule) i r ->
  r = snd (alone s j) /\
  forall p, In p (own_files j) ->
    file (fs (exec (start s jobs) schedule)) p = file (fst (alone s j)) p.
Proof.
  intros C out config tag tile band ranges s jobs schedule i j r Hd Ho Hr Ht Hj He.
  apply (runs_separate s jobs schedule i j r); try assumption.
  apply names_separate. exact (ranges_different_names _ _ _ _ _ _ _ Hd Ho Hr).
Qed.

(** ** Example *)
Definition ex_name (range : string) : string := "T_g_des-y6_meds-pizza-slices-range" ++ range ++ ".fits".
Definition ex_run (range : string) (data : Z) : job Z :=
  mkjob (Ok data) None true (fun c => Some (c + 100)%Z) (fun _ => true) SameDevice ("/out", ex_name range) (Some "/tmp") true.

Example C94_example_ranges :
  let jobs := [ex_run "0000-0100" 1; ex_run "0100-0200" 2] in
  let s := mk_fsys (fun _ => None) (fun d => d =? "/tmp") in
  let schedule := ([0;1;0;1;0;1] ++ repeat 1 20 ++ repeat 0 20)%nat%list in
  directory "/out" /\
  on_ranges "/out" "/c/des-y6.yaml" None "T" "g" [Some "0:100"; Some "100:200"] jobs /\
  different_ranges [Some "0:100"; Some "100:200"] /\ tmpdirs_exist s jobs /\
  ended (exec (start s jobs) schedule) 0 (Ok tt) /\
  file (fs (exec (start s jobs) schedule)) ("/out", "T_g_des-y6_meds-pizza-slices-range0000-0100.fits.fz") = Some 101%Z.
Proof.
  assert (D : directory "/out") by (split; apply not_ends; reflexivity).
  split; [exact D|]. split; [|split; [|split; [|split]]].
  - repeat constructor; eexists; (split; [vm_compute; reflexivity|]); apply basename_file; vm_compute; reflexivity.
  - assert (E : forall r r' p p', meds_path "/out" "c" None r "T" "g" = Ok p -> meds_path "/out" "c" None r' "T" "g" = Ok p' ->
        p <> p' -> ~ same_range r r').
    { intros r r' p p' H H' N S. apply N. now apply (names_iff_ranges _ _ _ _ _ _ _ _ _ D H H'). }
    intros [|[|i]] [|[|j]] r r' N Er Er'; cbn in Er, Er';
      try (now destruct N); try (destruct i; discriminate); try (destruct j; discriminate);
      injection Er as <-; injection Er' as <-; (eapply E; [vm_compute; reflexivity|vm_compute; reflexivity|discriminate]).
  - intros j d [<-|[<-|[]]] E; injection E as <-; reflexivity.
  - vm_compute. reflexivity.
  - vm_compute. reflexivity.
Qed.

Print Assumptions C94_parallel_ranges.
