(** Vocabulary for the staging properties. *)
From Coq Require Import List String.
From Verif Require Import Lib.Base Model.Files.
Import ListNotations.

(** [s'] is a state in which a process performing [ops] from [s] may be
    stopped: any number of the operations have been done. *)
Definition crash_state {C} (s : fsys C) (ops : list (op C)) (s' : fsys C) : Prop :=
  exists done todo, ops = (done ++ todo)%list /\ s' = run s done.

(** The states a StagedOutFile object can be in: it is created, and stage_out
    is called any number of times. Between the calls the file system may be
    changed in any way, by anybody. *)
Inductive so_reach (C : Type) (fname : path) (tmpdir : option string) (must_exist : bool)
  : staged_out -> Prop :=
| so_reach_init : forall (s : fsys C) ops st,
    so_init s fname tmpdir must_exist = (ops, st) ->
    so_reach C fname tmpdir must_exist st
| so_reach_call : forall st (s : fsys C) dev ops st',
    so_reach C fname tmpdir must_exist st ->
    stage_out s dev st = (ops, Ok st') ->
    so_reach C fname tmpdir must_exist st'.

(** [st'] is reached from [st] by further calls of stage_out. *)
Inductive so_later (C : Type) (st : staged_out) : staged_out -> Prop :=
| so_later_now : so_later C st st
| so_later_call : forall st1 (s : fsys C) dev ops st',
    so_later C st st1 -> stage_out s dev st1 = (ops, Ok st') -> so_later C st st'.

(** The states of a StagedInFile object, likewise. *)
Inductive si_reach (C : Type) (fname : path) (tmpdir : option string) : staged_in -> Prop :=
| si_reach_init : si_reach C fname tmpdir (si_set_paths fname tmpdir)
| si_reach_stage : forall st (s : fsys C) partial ops st',
    si_reach C fname tmpdir st -> stage_in s partial st = (ops, Ok st') ->
    si_reach C fname tmpdir st'
| si_reach_cleanup : forall st (s : fsys C) ops st',
    si_reach C fname tmpdir st -> cleanup s st = (ops, st') ->
    si_reach C fname tmpdir st'.

(** The temporary copy of [fname] in directory [d]. *)
Definition in_dir (d : string) (fname : path) : path := (d, snd fname).

Definition add_fz (p : path) : path := (fst p, (snd p ++ ".fz")%string).
