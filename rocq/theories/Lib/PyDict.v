(** Python dictionaries with text keys, as lists of pairs in insertion order,
    and [str.lower] on ASCII texts. *)
From Coq Require Import ZArith List Bool String Ascii.
Import ListNotations.
Open Scope list_scope.

Definition dict (V : Type) : Type := list (string * V).

(** [d.get(k)]. *)
Fixpoint dget {V} (d : dict V) (k : string) : option V :=
  match d with
  | [] => None
  | (k', v) :: rest => if String.eqb k' k then Some v else dget rest k
  end.

(** [d[k] = v]: a key that is there keeps its place, a new one goes last. *)
Fixpoint dset {V} (d : dict V) (k : string) (v : V) : dict V :=
  match d with
  | [] => [(k, v)]
  | (k', v') :: rest => if String.eqb k' k then (k', v) :: rest else (k', v') :: dset rest k v
  end.

(** [list(d.keys())]. *)
Definition dkeys {V} (d : dict V) : list string := map fst d.

(** [c.lower()] for an ASCII character. *)
Definition lower_char (c : ascii) : ascii :=
  let n := nat_of_ascii c in
  if Nat.leb 65 n && Nat.leb n 90 then ascii_of_nat (n + 32) else c.

(** [s.lower()]. *)
Fixpoint lower (s : string) : string :=
  match s with
  | EmptyString => EmptyString
  | String c rest => String (lower_char c) (lower rest)
  end.
