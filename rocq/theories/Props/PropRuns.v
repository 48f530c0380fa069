(** C94: several runs at the same time on one file system. *)
From Coq Require Import ZArith List Bool Arith Lia String.
From Verif Require Import Lib.Base Model.Files Model.Runs Spec.RunsSpec Proofs.FilesProofs Proofs.RunsProofs.
Import ListNotations.
Open Scope string_scope.

(** C94: if no file belongs to two runs and the temporary directories exist, then, however
    the steps of the runs are interleaved and whichever of the others are killed, a run that
    has ended has the result, and the files, that it has when it is alone. *)
Theorem C94_separate_runs_do_as_alone :
  forall (C : Type) (s : fsys C) (jobs : list (job C)) (schedule : list nat) (i : nat) (j : job C) (r : result unit),
  separate jobs -> tmpdirs_exist s jobs -> nth_error jobs i = Some j ->
  ended (exec (start s jobs) schedule) i r ->
  r = snd (alone s j) /\
  forall p, In p (own_files j) ->
    file (fs (exec (start s jobs) schedule)) p = file (fst (alone s j)) p.
Proof. intros. eapply runs_separate; eassumption. Qed.

(** C94: at every moment, also after kills, what is at the output of a run is what was there
    before or what the run itself may write: never the data of another run, and without a
    copy between devices never an incomplete file. *)
Theorem C94_output_at_every_moment :
  forall (C : Type) (s : fsys C) (jobs : list (job C)) (schedule : list nat) (j : job C) (x : C),
  separate jobs -> tmpdirs_exist s jobs -> In j jobs ->
  file (fs (exec (start s jobs) schedule)) (output j) = Some x ->
  file s (output j) = Some x \/ may_write s j x.
Proof. intros. eapply runs_output; eassumption. Qed.

(** C94: files that belong to none of the runs stay as they are. *)
Theorem C94_other_files_are_left_alone :
  forall (C : Type) (s : fsys C) (jobs : list (job C)) (schedule : list nat) (p : path),
  separate jobs -> tmpdirs_exist s jobs -> (forall j, In j jobs -> ~ In p (own_files j)) ->
  file (fs (exec (start s jobs) schedule)) p = file s p.
Proof. intros. now apply runs_others. Qed.

(** C94: it is enough that the base names differ, whatever the directories are. *)
Theorem C94_different_names_are_separate :
  forall (C : Type) (jobs : list (job C)), different_names jobs -> separate jobs.
Proof. intros. now apply names_separate. Qed.

(** C94: it is also enough that the outputs differ and that every run has a temporary
    directory of its own, as the command line tool makes it. *)
Theorem C94_private_tmpdirs_are_separate :
  forall (C : Type) (jobs : list (job C)),
  different_outputs jobs -> private_tmpdirs jobs -> separate jobs.
Proof. intros. now apply private_separate. Qed.

(** C94: a run is never stuck: whatever has happened, some number of its own steps ends it. *)
Theorem C94_a_run_can_end :
  forall (C : Type) (s : fsys C) (jobs : list (job C)) (schedule : list nat) (i : nat),
  exists n r, ended (exec (start s jobs) (schedule ++ repeat i n)) i r.
Proof.
  intros C s jobs schedule i. destruct (run_ends _ (exec (start s jobs) schedule) i eq_refl) as (n & r & H).
  exists n, r. unfold exec in *. now rewrite fold_left_app.
Qed.

(** C94: a single run, step by step, does what the program for one run does, also when its
    temporary directory is new. *)
Theorem C94_a_single_run_is_the_program :
  forall (C : Type) (s : fsys C) (j : job C) (schedule : list nat) (r : result unit),
  ended (exec (start s [j]) schedule) 0 r ->
  r = snd (alone s j) /\
  forall p, file (fs (exec (start s [j]) schedule)) p = file (fst (alone s j)) p.
Proof. intros. now apply solo. Qed.

(** C94: whatever other runs, killed runs and earlier attempts have left, with shared files
    or not: a run that is then made alone, in which writing works and fpack leaves a file,
    ends with its own data at the output. *)
Theorem C94_a_rerun_repairs :
  forall (C : Type) (s : fsys C) (jobs : list (job C)) (schedule : list nat) (j : job C) (c x : C)
    (again : list nat) (r : result unit),
  let left_over := fs (exec (start s jobs) schedule) in
  j_fits j = Ok c -> j_pack j c = Some x ->
  ended (exec (start left_over [j]) again) 0 r ->
  file (fs (exec (start left_over [j]) again)) (output j) = Some x /\
  r = if j_valid j x then Ok tt else Raise OtherError.
Proof.
  intros C s jobs schedule j c x again r left_over Hf Hp He. destruct (solo _ _ _ _ He) as [Er Ef].
  rewrite Ef, Er. unfold alone. rewrite Hf, Hp.
  destruct (make_slices_files left_over (mk_world (Ok c) (j_partial_fits j) (j_fpack_ok j) (Some x) (j_valid j) (j_device j))
    (j_meds j) (j_tmpdir j) (j_remove_fits j)) as [s' r'] eqn:E.
  exact (make_slices_files_spec _ _ _ _ _ _ _ _ E eq_refl).
Qed.

(** ** Examples *)
Definition ex_job (dir base : string) (tmpdir : option string) (data : Z) : job Z :=
  mkjob (Ok data) None true (fun c => Some (c + 100)%Z) (fun _ => true) SameDevice (dir, base) tmpdir false.

Definition ex_disk (tmp : bool) : fsys Z := mk_fsys (fun _ => None) (fun d => tmp && (d =? "t")).

(** Two runs that share a temporary directory, with different base names. *)
Definition ex_jobs : list (job Z) := [ex_job "a" "m1" (Some "t") 1; ex_job "b" "m2" (Some "t") 2].
Definition ex_schedule : list nat := [0;1;0;1;0;1;0;1;0;1;0;1;0;1;0;1;0;1;0;1;0;1]%nat.

Example C94_example_separate :
  separate ex_jobs /\ tmpdirs_exist (ex_disk true) ex_jobs /\
  ended (exec (start (ex_disk true) ex_jobs) ex_schedule) 0 (Ok tt) /\
  ended (exec (start (ex_disk true) ex_jobs) ex_schedule) 1 (Ok tt) /\
  file (fs (exec (start (ex_disk true) ex_jobs) ex_schedule)) ("a", "m1.fz") = Some 101%Z /\
  file (fs (exec (start (ex_disk true) ex_jobs) ex_schedule)) ("b", "m2.fz") = Some 102%Z.
Proof.
  split; [|split].
  - apply C94_different_names_are_separate. intros [|[|i]] [|[|j]] a b N Ea Eb; cbn in Ea, Eb;
      try (now destruct N); try (destruct i; discriminate); try (destruct j; discriminate);
      injection Ea as <-; injection Eb as <-; split; discriminate.
  - intros j d [<-|[<-|[]]] E; injection E as <-; reflexivity.
  - vm_compute. repeat split.
Qed.

(** The first run is killed before it stages out: an old output is still there; killed
    later, the new one is. *)
Example C94_example_killed :
  let s := mk_fsys (fun p => if path_eqb p ("a", "m1.fz") then Some 7%Z else None) (fun d => d =? "t") in
  let at_output l := file (fs (exec (start s ex_jobs) l)) ("a", "m1.fz") in
  at_output ([0;1;0;1;0;1;0;0;0;0;0]%nat ++ repeat 1%nat 20)%list = Some 7%Z /\
  at_output ([0;1;0;1;0;1;0;0;0;0;0;0]%nat ++ repeat 1%nat 20)%list = None /\
  at_output ([0;1;0;1;0;1;0;0;0;0;0;0;0;0]%nat ++ repeat 1%nat 20)%list = Some 101%Z.
Proof. vm_compute. repeat split. Qed.

(** The two runs with one base name and a shared temporary directory are both killed in the
    middle; then the first one is made again. *)
Example C94_example_rerun :
  let j := ex_job "a" "m" (Some "t") 1 in
  let left_over := fs (exec (start (ex_disk true) [j; ex_job "b" "m" (Some "t") 2]) [0;0;0;1;1;1;0;0;0]%nat) in
  file left_over ("t", "m") = Some 2%Z /\ file left_over ("t", "m.fz") = Some 102%Z /\
  ended (exec (start left_over [j]) (repeat 0%nat 20)) 0 (Ok tt) /\
  file (fs (exec (start left_over [j]) (repeat 0%nat 20))) (output j) = Some 101%Z.
Proof. vm_compute. repeat split. Qed.

(** Two outputs with one base name, and private temporary directories. *)
Example C94_example_private :
  let jobs := [ex_job "a" "m" (Some "t1") 1; ex_job "b" "m" (Some "t2") 2] in
  different_outputs jobs /\ private_tmpdirs jobs.
Proof.
  split; intros [|[|i]] [|[|j]] a b N Ea Eb; cbn in Ea, Eb;
    try (now destruct N); try (destruct i; discriminate); try (destruct j; discriminate);
    injection Ea as <-; injection Eb as <-; try discriminate; cbn; do 2 eexists; repeat split; discriminate.
Qed.

(** C94 fails for outputs in different directories with one base name and a shared
    temporary directory: both runs report success, and one has written the data of the other. *)
Theorem C94_shared_tmpdir_mixes_the_outputs_refuted :
  ~ (forall (C : Type) (s : fsys C) (jobs : list (job C)) (schedule : list nat) (i : nat) (j : job C),
       different_outputs jobs -> tmpdirs_exist s jobs -> nth_error jobs i = Some j ->
       (forall q, (q < List.length jobs)%nat -> ended (exec (start s jobs) schedule) q (Ok tt)) ->
       file (fs (exec (start s jobs) schedule)) (output j) = file (fst (alone s j)) (output j)).
Proof.
  intros H.
  specialize (H Z (ex_disk true) [ex_job "a" "m" (Some "t") 1; ex_job "b" "m" (Some "t") 2]
    ([0;0;0;1;1;1] ++ repeat 0 20 ++ repeat 1 20)%nat%list 0%nat (ex_job "a" "m" (Some "t") 1)).
  assert (X : Some 102%Z = Some 101%Z); [|discriminate X]. apply H.
  - intros [|[|i]] [|[|j]] a b N Ea Eb; cbn in Ea, Eb;
      try (now destruct N); try (destruct i; discriminate); try (destruct j; discriminate);
      injection Ea as <-; injection Eb as <-; discriminate.
  - intros j d [<-|[<-|[]]] E; injection E as <-; reflexivity.
  - reflexivity.
  - intros [|[|q]] Hq; [vm_compute; reflexivity|vm_compute; reflexivity|cbn in Hq; lia].
Qed.

(** C94 fails when the temporary directory is new: a run that finds it missing, and then
    made by another run, raises. *)
Theorem C94_new_tmpdir_raises_refuted :
  ~ (forall (C : Type) (s : fsys C) (jobs : list (job C)) (schedule : list nat) (i : nat) (j : job C) (r : result unit),
       separate jobs -> nth_error jobs i = Some j ->
       ended (exec (start s jobs) schedule) i r -> r = snd (alone s j)).
Proof.
  intros H.
  specialize (H Z (ex_disk false) ex_jobs ([0;0;1;1] ++ repeat 0 20 ++ repeat 1 20)%nat%list 1%nat
    (ex_job "b" "m2" (Some "t") 2) (Raise IOError)).
  assert (X : Raise IOError = Ok tt :> result unit); [|discriminate X]. apply H.
  - apply C94_example_separate.
  - reflexivity.
  - vm_compute. reflexivity.
Qed.

Print Assumptions C94_separate_runs_do_as_alone.
Print Assumptions C94_output_at_every_moment.
Print Assumptions C94_other_files_are_left_alone.
Print Assumptions C94_different_names_are_separate.
Print Assumptions C94_private_tmpdirs_are_separate.
Print Assumptions C94_a_run_can_end.
Print Assumptions C94_a_single_run_is_the_program.
Print Assumptions C94_a_rerun_repairs.
Print Assumptions C94_shared_tmpdir_mixes_the_outputs_refuted.
Print Assumptions C94_new_tmpdir_raises_refuted.
