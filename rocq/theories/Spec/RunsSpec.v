(** Vocabulary for several runs on one file system. *)
From Coq Require Import List String.
From Verif Require Import Lib.Base Model.Files Model.Runs.
Import ListNotations.
Open Scope string_scope.

(** The directory in which a run works. *)
Definition work_dir {C} (j : job C) : string :=
  match j_tmpdir j with Some d => d | None => fst (j_meds j) end.

(** The files of a run: the output, and the compressed and the uncompressed file in the
    directory in which it works. *)
Definition own_files {C} (j : job C) : list path :=
  [ (fst (j_meds j), snd (j_meds j) ++ ".fz");
    (work_dir j, snd (j_meds j) ++ ".fz");
    (work_dir j, snd (j_meds j)) ].

(** No file belongs to two runs. *)
Definition separate {C} (jobs : list (job C)) : Prop :=
  forall i j a b p, i <> j -> nth_error jobs i = Some a -> nth_error jobs j = Some b ->
    In p (own_files a) -> ~ In p (own_files b).

(** The temporary directories exist. *)
Definition tmpdirs_exist {C} (s : fsys C) (jobs : list (job C)) : Prop :=
  forall j d, In j jobs -> j_tmpdir j = Some d -> isdir s d = true.

(** Run [i] has ended, with result [r]. *)
Definition ended {C} (st : state C) (i : nat) (r : result unit) : Prop := runs st i = Return r.

(** What the run does when it is alone: the program of Model/Files.v, where what fpack
    makes of the uncompressed file is given. *)
Definition alone {C} (s : fsys C) (j : job C) : fsys C * result unit :=
  make_slices_files s
    (mk_world (j_fits j) (j_partial_fits j) (j_fpack_ok j)
       (match j_fits j with Ok c => j_pack j c | Raise _ => None end) (j_valid j) (j_device j))
    (j_meds j) (j_tmpdir j) (j_remove_fits j).

(** The outputs have different base names, also when ".fz" is added to one of them. *)
Definition different_names {C} (jobs : list (job C)) : Prop :=
  forall i j a b, i <> j -> nth_error jobs i = Some a -> nth_error jobs j = Some b ->
    snd (j_meds a) <> snd (j_meds b) /\ snd (j_meds a) <> snd (j_meds b) ++ ".fz".

(** The outputs are different files. *)
Definition different_outputs {C} (jobs : list (job C)) : Prop :=
  forall i j a b, i <> j -> nth_error jobs i = Some a -> nth_error jobs j = Some b ->
    j_meds a <> j_meds b.

(** The compressed output of a run. *)
Definition output {C} (j : job C) : path := (fst (j_meds j), snd (j_meds j) ++ ".fz").

(** Every run has a temporary directory of its own, which is not where another run puts its
    output. *)
Definition private_tmpdirs {C} (jobs : list (job C)) : Prop :=
  forall i j a b, i <> j -> nth_error jobs i = Some a -> nth_error jobs j = Some b ->
    exists d e, j_tmpdir a = Some d /\ j_tmpdir b = Some e /\
      d <> e /\ d <> fst (j_meds b) /\ e <> fst (j_meds a).

(** What a run can put at its output: what fpack makes of its data; after an exception, the
    compressed file that was in the directory in which it works; and what an incomplete
    copy between devices leaves. *)
Definition may_write {C} (s : fsys C) (j : job C) (x : C) : Prop :=
  match j_fits j with
  | Ok c => j_pack j c = Some x
  | Raise _ => file s (work_dir j, snd (j_meds j) ++ ".fz") = Some x
  end \/
  match j_device j with SameDevice => False | OtherDevice partial => In x partial end.
