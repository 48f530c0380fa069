(** Vocabulary for runs of the command line tool on ranges of one tile. *)
From Coq Require Import List String.
From Verif Require Import Lib.Base Model.Cli Model.Files Model.Runs Spec.DesInfoSpec Spec.CliSpec.
Import ListNotations.

(** The runs have the outputs that the command line tool gives them, for these ranges of
    slices and otherwise equal options; only the base names matter. *)
Definition on_ranges {C} (out config : string) (tag : option string) (tile band : string)
  (ranges : list (option string)) (jobs : list (job C)) : Prop :=
  Forall2 (fun r j => exists p, meds_path out config tag r tile band = Ok p /\ file_name p (snd (j_meds j)))
    ranges jobs.

(** No two of the ranges are the same. *)
Definition different_ranges (ranges : list (option string)) : Prop :=
  forall i j r r', i <> j -> nth_error ranges i = Some r -> nth_error ranges j = Some r' -> ~ same_range r r'.
