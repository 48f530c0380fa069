(** Vocabulary for the files behind the noise images. *)
From Coq Require Import ZArith List Arith.
From Verif Require Import Lib.Base Model.NoiseFiles.
Import ListNotations.
Open Scope Z_scope.

Section Spec.
Context {F : Type}.

(** Nobody has begun; existing files are in existing directories and their inodes are
    in use. *)
Definition at_the_start (st : state (F := F)) : Prop :=
  (forall p, workers st p = Start) /\
  forall path i, names st path = Some i -> (i < next st)%nat /\ dirs st (fst path) = true.

(** There is nothing called [d], neither a directory nor a file in it. *)
Definition gone (st : state (F := F)) (d : Z) : Prop :=
  dirs st d = false /\ forall name, names st (d, name) = None.

(** Where the file of worker [p] is. *)
Definition dir_of (jobs : nat -> job (F := F)) (tmpdir_of : nat -> Z) (p : nat) : Z :=
  match j_dir (jobs p) with Some d => d | None => tmpdir_of p end.

(** No two workers are given the same path. *)
Definition different_paths (jobs : nat -> job (F := F)) (tmpdir_of name_of : nat -> Z) : Prop :=
  forall p q, p <> q ->
  dir_of jobs tmpdir_of p <> dir_of jobs tmpdir_of q \/ name_of p <> name_of q.
End Spec.
