(** Vocabulary for the access to the archive. *)
From Coq Require Import ZArith List Bool String Ascii Lia.
From Coq Require Import List.
From Verif Require Import Lib.Base Lib.PyStr Model.Archive Spec.DesInfoSpec.
Import ListNotations.
Open Scope string_scope.

(** No character of the text is special in patterns of SQL. *)
Definition no_wildcard (s : string) : Prop := free_of "%" s /\ free_of "_" s.

(** There is a star catalogue for the tile and the version: a file of the right
    type, whose name starts with that of the tile and ends with the version, and
    which is in directory [path] of the archive. *)
Definition in_archive (files : list desfile) (archive : list archive_info)
  (tilename version path name : string) : Prop :=
  In (mkdf name "cat_tile_gaia") files /\ In (mkai path name) archive /\
  exists middle, name = tilename ++ middle ++ version ++ ".fits".

(** The names on a path, from the top, and whether it starts at the root. Slashes
    that follow each other count once. *)
Definition names (p : string) : list string :=
  filter (fun s => negb (String.eqb s "")) (split_on "/" p).
Definition rooted (p : string) : Prop := exists rest, p = String "/" rest.

(** Both paths lead to the same place. *)
Definition same_place (p q : string) : Prop := names p = names q /\ (rooted p <-> rooted q).

(** What the shell does with a command without quotes and special characters other
    than variables: the words between the blanks. *)
Definition blank (c : ascii) : bool := Ascii.eqb c " " || Ascii.eqb c (ascii_of_nat 10).
Fixpoint words_from (word : string) (s : string) : list string :=
  match s with
  | EmptyString => if String.eqb word "" then [] else [word]
  | String c s =>
      if blank c then (if String.eqb word "" then [] else [word]) ++ words_from "" s
      else words_from (word ++ String c "") s
  end%list.
Definition words (s : string) : list string := words_from "" s.

(** Letters, digits and the characters [/ . - _ + : @ =], none of which is special
    to the shell; at least one. *)
Definition ordinary_char (c : ascii) : Prop :=
  let n := nat_of_ascii c in
  (48 <= n <= 57 \/ 65 <= n <= 90 \/ 97 <= n <= 122 \/
   In n [47; 46; 45; 95; 43; 58; 64; 61])%nat.
Fixpoint all_ordinary (s : string) : Prop :=
  match s with EmptyString => True | String c s => ordinary_char c /\ all_ordinary s end.
Definition ordinary_text (s : string) : Prop := s <> "" /\ all_ordinary s.
