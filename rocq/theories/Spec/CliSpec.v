(** Vocabulary for the command line properties. *)
From Coq Require Import ZArith Bool String Ascii List.
From Verif Require Import Lib.Base Lib.PyStr Lib.PyDict Lib.PyText Model.Cli Spec.DesInfoSpec.
Import ListNotations.
Open Scope string_scope.
Open Scope list_scope.
Open Scope Z_scope.

(** The text "start:end", read as Python does. *)
Definition reads_range (s : string) (a b : Z) : Prop :=
  exists x y, free_of ":" x /\ free_of ":" y /\ s = (x ++ ":" ++ y)%string /\ py_int x = Ok a /\ py_int y = Ok b.

(** The same range, or both none. *)
Definition same_range (r r' : option string) : Prop :=
  match r, r' with
  | None, None => True
  | Some s, Some s' => exists a b, reads_range s a b /\ reads_range s' a b
  | _, _ => False
  end.

(** The path is that of a directory. *)
Definition directory (out : string) : Prop := ~ ends ".fits" out /\ ~ ends ".fits.fz" out.

Definition is_hex (c : ascii) : Prop :=
  In c ["0"; "1"; "2"; "3"; "4"; "5"; "6"; "7"; "8"; "9"; "a"; "b"; "c"; "d"; "e"; "f"]%char.

(** A non-empty text of lower-case hexadecimal digits. *)
Definition hex_text (s : string) : Prop := s <> "" /\ forall a c b, s = (a ++ String c b)%string -> is_hex c.

(** The method name that is used. *)
Definition method_for (level_name : string) (method : option string) (m : string) : Prop :=
  ((method = None \/ method = Some "") /\ m = lower level_name) \/ (method = Some m /\ m <> "").
