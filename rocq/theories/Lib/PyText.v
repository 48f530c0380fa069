(** More Python operations on ASCII texts: [str.replace], [str.upper],
    [int(s, 16)]. *)
From Coq Require Import ZArith List Bool String Ascii.
From Verif Require Import Lib.Base Lib.PyStr.
Import ListNotations.
Open Scope string_scope.
Open Scope Z_scope.

(** [s.replace(p, '')] for a non-empty [p]: occurrences are found from the left
    and do not overlap; [skip] characters of the last one are still to drop. *)
Fixpoint remove_all_from (p : string) (skip : nat) (s : string) : string :=
  match s with
  | EmptyString => EmptyString
  | String c rest =>
      match skip with
      | S k => remove_all_from p k rest
      | O => if startswith p s then remove_all_from p (String.length p - 1) rest
             else String c (remove_all_from p 0 rest)
      end
  end.

Definition remove_all (p s : string) : string := remove_all_from p 0 s.

(** [c.upper()] for an ASCII character. *)
Definition upper_char (c : ascii) : ascii :=
  let n := nat_of_ascii c in
  if Nat.leb 97 n && Nat.leb n 122 then ascii_of_nat (n - 32) else c.

(** [s.upper()]. *)
Fixpoint upper (s : string) : string :=
  match s with
  | EmptyString => EmptyString
  | String c rest => String (upper_char c) (upper rest)
  end.

(** A hexadecimal digit. *)
Definition hex_digit (c : ascii) : option Z :=
  let n := Z.of_nat (nat_of_ascii c) in
  if (48 <=? n) && (n <=? 57) then Some (n - 48)
  else if (97 <=? n) && (n <=? 102) then Some (n - 87)
  else if (65 <=? n) && (n <=? 70) then Some (n - 55)
  else None.

(** [int(s, 16)] for a text of digits without sign, spaces, underscores or
    prefix; anything else is an error here. *)
Fixpoint hex_from (s : string) (acc : Z) : result Z :=
  match s with
  | EmptyString => Ok acc
  | String c rest =>
      match hex_digit c with
      | Some d => hex_from rest (acc * 16 + d)
      | None => Raise ValueError
      end
  end.

Definition int16 (s : string) : result Z :=
  match s with EmptyString => Raise ValueError | _ => hex_from s 0 end.
