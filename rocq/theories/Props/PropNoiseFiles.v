(** C93: the files behind the noise images of several workers. *)
From Coq Require Import ZArith List Bool Arith Lia.
From Verif Require Import Lib.Base Lib.Floats Model.Noise Model.NoiseFiles Spec.NoiseFilesSpec
  Proofs.NoiseFilesProofs.
Import ListNotations.
Open Scope Z_scope.

(** C93: however the steps of the workers are interleaved, and whichever directories are
    removed and workers killed in between: if no two workers were given the same path, a
    worker that has its image reads the image it would have made alone. *)
Theorem C93_workers_do_not_disturb_each_other :
  forall (F : Type) (FO : FloatOps F) (normal : Z -> Z -> F) (store : F -> F)
    (jobs : nat -> job (F := F)) (tmpdir_of name_of : nat -> Z),
  different_paths jobs tmpdir_of name_of ->
  forall st l st' p im, at_the_start st ->
  exec normal store jobs tmpdir_of name_of st l = Some st' ->
  noise_of st' p = Some im ->
  exists draws,
    noise_image normal store (j_seed (jobs p)) (j_weight (jobs p)) (j_fill_weight (jobs p))
      (j_sx (jobs p)) (j_sy (jobs p)) = Ok (im, draws).
Proof. intros. eapply images_right; eassumption. Qed.

(** C93: a file that was there before is never written to, and its name goes away only
    with its directory; even when workers are given equal paths. *)
Theorem C93_other_files_are_left_alone :
  forall (F : Type) (FO : FloatOps F) (normal : Z -> Z -> F) (store : F -> F)
    (jobs : nat -> job (F := F)) (tmpdir_of name_of : nat -> Z) st l st' path inode,
  at_the_start st -> exec normal store jobs tmpdir_of name_of st l = Some st' ->
  names st path = Some inode ->
  data st' inode = data st inode /\
  (~ In (RemoveDir (fst path)) l -> names st' path = Some inode).
Proof. intros. eapply old_files; eassumption. Qed.

(** C93: without a [dir] argument nothing is left on disk by a worker that has finished. *)
Theorem C93_nothing_is_left_without_a_directory :
  forall (F : Type) (FO : FloatOps F) (normal : Z -> Z -> F) (store : F -> F)
    (jobs : nat -> job (F := F)) (tmpdir_of name_of : nat -> Z) st l st' p im,
  at_the_start st -> exec normal store jobs tmpdir_of name_of st l = Some st' ->
  j_dir (jobs p) = None ->
  (forall q, q <> p -> dir_of jobs tmpdir_of q <> tmpdir_of p) ->
  noise_of st' p = Some im -> gone st' (tmpdir_of p).
Proof.
  intros F FO normal store jobs tmpdir_of name_of st l st' p im S E D O H. unfold noise_of in H.
  destruct (workers st' p) eqn:W; try discriminate. eapply nothing_left; eassumption.
Qed.

(** C93: with a [dir] argument the file stays there until the directory is removed. *)
Theorem C93_file_stays_until_the_directory_goes :
  forall (F : Type) (FO : FloatOps F) (normal : Z -> Z -> F) (store : F -> F)
    (jobs : nat -> job (F := F)) (tmpdir_of name_of : nat -> Z) st l st' p d im,
  at_the_start st -> exec normal store jobs tmpdir_of name_of st l = Some st' ->
  j_dir (jobs p) = Some d -> dirs st d = true -> ~ In (RemoveDir d) l ->
  noise_of st' p = Some im ->
  exists inode, names st' (d, name_of p) = Some inode /\ data st' inode = im.
Proof.
  intros F FO normal store jobs tmpdir_of name_of st l st' p d im S E D Hd R H. unfold noise_of in H.
  destruct (workers st' p) as [| | | |i| |] eqn:W; try discriminate. injection H as <-.
  exists i. split; [|reflexivity]. eapply file_stays; eassumption.
Qed.

(** C93: once the directory has been removed no worker, however late, puts a file there. *)
Theorem C93_a_removed_directory_stays_removed :
  forall (F : Type) (FO : FloatOps F) (normal : Z -> Z -> F) (store : F -> F)
    (jobs : nat -> job (F := F)) (tmpdir_of name_of : nat -> Z) st before after st' d,
  (forall q, j_dir (jobs q) = None -> tmpdir_of q <> d) ->
  exec normal store jobs tmpdir_of name_of st (before ++ RemoveDir d :: after) = Some st' ->
  gone st' d.
Proof. intros. eapply removed_for_good; eassumption. Qed.

(** C93: a worker that is let run in an existing directory gets its image. *)
Theorem C93_a_worker_finishes :
  forall (F : Type) (FO : FloatOps F) (normal : Z -> Z -> F) (store : F -> F)
    (jobs : nat -> job (F := F)) (tmpdir_of name_of : nat -> Z) st p d,
  workers st p = Start -> j_sx (jobs p) <> 0 -> j_sy (jobs p) <> 0 ->
  j_dir (jobs p) = Some d -> dirs st d = true -> names st (d, name_of p) = None ->
  exists n st' im,
    exec normal store jobs tmpdir_of name_of st
      ([Begin p; Pick p; Open p] ++ repeat (Write p) n ++ [Finish p]) = Some st' /\
    noise_of st' p = Some im.
Proof.
  intros. destruct (finishes normal store jobs tmpdir_of name_of st p d) as (st' & im & E & N); try assumption.
  exists (length (chunks (jobs p))), st', im. auto.
Qed.

(** Concrete: images of one row and two pixels, made in chunks of one pixel; the draws
    are 10 seed + k. Worker 0 and worker 1 use directory 7, worker 2 its own, 20. There is
    a file 7/99 already. *)
Definition example_jobs (p : nat) : job (F := f64) :=
  mkjob (Z.of_nat p) (full 1 2 (f64_ofZ 1)) None 1 1 (if (p <? 2)%nat then Some 7 else None).
Definition example_start : state (F := f64) :=
  mkstate (fun d => d =? 7) (fun q => if same_path q (7, 99) then Some 0%nat else None)
    (fun _ => full 1 2 (f64_ofZ 5)) 1 (fun _ => Start).
Definition example_draw (seed k : Z) : f64 := f64_ofZ (10 * seed + k).
Definition example_run (name_of : nat -> Z) (l : list event) : option (state (F := f64)) :=
  exec example_draw (fun x => x) example_jobs (fun p => 18 + Z.of_nat p) name_of example_start l.
Definition pixels (im : option (img f64)) : option (list (option Z)) :=
  option_map (fun im => map f64_trunc (ravel im)) im.
(** What workers 0, 1 and 2 read in the end, whether there is the directory 7 and the
    directory 20, the files 7/99, 7/30 and 7/31. *)
Definition outcome (st : option (state (F := f64))) :=
  match st with
  | Some st => (map (fun p => pixels (noise_of st p)) [0; 1; 2]%nat, (dirs st 7, dirs st 20),
                map (fun nm => pixels (option_map (data st) (names st (7, nm)))) [99; 30; 31])
  | None => ([], (false, false), [])
  end.

Definition example_schedule : list event :=
  [Begin 0; Begin 1; Pick 1; Pick 0; Open 0; Write 0; Open 1; Begin 2; Write 1; Write 0; Pick 2; Open 2;
   Finish 0; Write 2; Write 2; Write 1; Finish 2; Finish 1]%nat.

Lemma example_different : different_paths example_jobs (fun p => 18 + Z.of_nat p) (fun p => 30 + Z.of_nat p).
Proof. intros p q H. right. lia. Qed.

Lemma example_at_start : at_the_start example_start.
Proof.
  split; [reflexivity|]. intros [d nm] i. cbn [example_start names]. destruct (same_path (d, nm) (7, 99)) eqn:E; [|discriminate].
  intros H. injection H as <-. apply same_path_eq in E. injection E as -> ->. split; [cbn; lia|reflexivity].
Qed.

Example C93_example :
  outcome (example_run (fun p => 30 + Z.of_nat p) example_schedule)
  = ([Some [Some 0; Some 1]; Some [Some 10; Some 11]; Some [Some 20; Some 21]], (true, false),
     [Some [Some 5; Some 5]; Some [Some 0; Some 1]; Some [Some 10; Some 11]]).
Proof. vm_compute. reflexivity. Qed.

Example C93_example_hypotheses :
  different_paths example_jobs (fun p => 18 + Z.of_nat p) (fun p => 30 + Z.of_nat p) /\
  at_the_start example_start /\
  (forall q, q <> 2%nat -> dir_of example_jobs (fun p => 18 + Z.of_nat p) q <> 18 + Z.of_nat 2) /\
  (forall q, j_dir (example_jobs q) = None -> 18 + Z.of_nat q <> 7).
Proof.
  split; [exact example_different|]. split; [exact example_at_start|]. split.
  - intros q H. unfold dir_of, example_jobs. cbn [j_dir]. destruct (q <? 2)%nat; lia.
  - intros q _. lia.
Qed.

(** The directory 7 is removed while worker 0 is writing and before worker 1 opens its
    file: worker 0 still gets its image, worker 1 an IOError, and the directory stays away. *)
Example C93_example_removed :
  let st := example_run (fun p => 30 + Z.of_nat p)
    [Begin 0; Begin 1; Pick 1; Pick 0; Open 0; Write 0; RemoveDir 7; Open 1; Write 0; Finish 0]%nat in
  outcome st = ([Some [Some 0; Some 1]; None; None], (false, false), [None; None; None]) /\
  option_map (fun st => workers st 1%nat) st = Some (Failed IOError).
Proof. split; vm_compute; reflexivity. Qed.

Lemma read_run (run : option (state (F := f64))) p x :
  match run with Some st => pixels (noise_of st p) | None => None end = Some x ->
  exists st im, run = Some st /\ noise_of st p = Some im /\ pixels (Some im) = Some x.
Proof.
  destruct run as [st|]; [|discriminate]. intros H. destruct (noise_of st p) as [im|] eqn:N; [|discriminate].
  exists st, im. auto.
Qed.

Lemma read_image (r : result (img f64 * Z)) x :
  match r with Ok (im, _) => pixels (Some im) | Raise _ => None end = x ->
  forall im k, r = Ok (im, k) -> pixels (Some im) = x.
Proof. intros H im k ->. exact H. Qed.

Lemma read_killed (run : option (state (F := f64))) d p :
  match run with Some st => (dirs st d, workers st p) | None => (false, Start) end = (true, Killed) ->
  exists st, run = Some st /\ dirs st d = true /\ workers st p = Killed.
Proof. destruct run as [st|]; [|discriminate]. intros H. injection H as H1 H2. exists st. auto. Qed.

Definition race : list event :=
  [Begin 0; Begin 1; Pick 0; Pick 1; Open 0; Write 0; Write 0; Finish 0; Open 1; Write 1; Write 1; Finish 1]%nat.
Definition killed : list event := [Begin 2; Pick 2; Open 2; Write 2; Kill 2]%nat.

Lemma race_end run :
  run = exec example_draw (fun x => x) example_jobs (fun p => 18 + Z.of_nat p) (fun _ => 30) example_start race ->
  exists st im, run = Some st /\ noise_of st 0%nat = Some im /\ pixels (Some im) = Some [Some 10; Some 11].
Proof. intros E. apply read_run. rewrite E. vm_compute. reflexivity. Qed.

Lemma killed_end run :
  run = exec example_draw (fun x => x) example_jobs (fun p => 18 + Z.of_nat p) (fun p => 30 + Z.of_nat p) example_start killed ->
  exists st, run = Some st /\ dirs st (18 + Z.of_nat 2) = true /\ workers st 2%nat = Killed.
Proof. intros E. apply read_killed. rewrite E. vm_compute. reflexivity. Qed.

Lemma image0 r :
  r = noise_image example_draw (fun x => x) (j_seed (example_jobs 0)) (j_weight (example_jobs 0))
    (j_fill_weight (example_jobs 0)) (j_sx (example_jobs 0)) (j_sy (example_jobs 0)) ->
  forall im k, r = Ok (im, k) -> pixels (Some im) = Some [Some 0; Some 1].
Proof. intros E. apply read_image. rewrite E. vm_compute. reflexivity. Qed.

(** C93: [tempfile.mktemp] returns a name that does not exist, but does not make the
    file: when two workers of one directory pick the same name before either of them has
    opened it, the first reads the image of the second. *)
Theorem C93_equal_names_mix_images_refuted :
  ~ (forall (jobs : nat -> job (F := f64)) (tmpdir_of name_of : nat -> Z) st l st' p im,
     at_the_start st ->
     exec example_draw (fun x => x) jobs tmpdir_of name_of st l = Some st' ->
     noise_of st' p = Some im ->
     exists draws,
       noise_image example_draw (fun x => x) (j_seed (jobs p)) (j_weight (jobs p)) (j_fill_weight (jobs p))
         (j_sx (jobs p)) (j_sy (jobs p)) = Ok (im, draws)).
Proof.
  intros H.
  destruct (race_end _ eq_refl) as (st' & im & E & N & P).
  destruct (H _ _ _ _ _ _ _ _ example_at_start E N) as (k & K).
  rewrite (image0 _ eq_refl _ _ K) in P. discriminate.
Qed.

(** C93: a worker that is killed leaves its own directory and the file behind. *)
Theorem C93_killed_worker_leaves_its_directory_refuted :
  ~ (forall (jobs : nat -> job (F := f64)) (tmpdir_of name_of : nat -> Z) st l st' p,
     at_the_start st -> different_paths jobs tmpdir_of name_of ->
     exec example_draw (fun x => x) jobs tmpdir_of name_of st l = Some st' ->
     j_dir (jobs p) = None -> dirs st (tmpdir_of p) = false ->
     workers st' p = Killed -> gone st' (tmpdir_of p)).
Proof.
  intros H.
  destruct (killed_end _ eq_refl) as (st' & E & D & W).
  destruct (H _ _ _ _ _ _ 2%nat example_at_start example_different E eq_refl eq_refl W) as [G _].
  rewrite D in G. discriminate.
Qed.

Print Assumptions C93_workers_do_not_disturb_each_other.
Print Assumptions C93_other_files_are_left_alone.
Print Assumptions C93_nothing_is_left_without_a_directory.
Print Assumptions C93_file_stays_until_the_directory_goes.
Print Assumptions C93_a_removed_directory_stays_removed.
Print Assumptions C93_a_worker_finishes.
Print Assumptions C93_equal_names_mix_images_refuted.
Print Assumptions C93_killed_worker_leaves_its_directory_refuted.
