(** Python string operations used by the model files, on ASCII strings:
    [str.split], [int(str)], ["%d" % int]. *)
From Coq Require Import ZArith List Bool String Ascii DecimalString DecimalZ Decimal.
From Verif Require Import Lib.Base.
Import ListNotations.
Open Scope string_scope.
Open Scope Z_scope.

(** [s.split(sep)] for a one-character separator: never empty. *)
Fixpoint split_on (sep : ascii) (s : string) : list string :=
  match s with
  | EmptyString => [EmptyString]
  | String c rest =>
      if Ascii.eqb c sep then EmptyString :: split_on sep rest
      else match split_on sep rest with
           | h :: t => String c h :: t
           | [] => [String c EmptyString]
           end
  end.

(** White space stripped by [int()]: tab to carriage return, the separators
    28 to 31, and the blank. *)
Definition is_space (c : ascii) : bool :=
  let n := nat_of_ascii c in
  (Nat.leb 9 n && Nat.leb n 13) || (Nat.leb 28 n && Nat.leb n 32).

Fixpoint lstrip (s : string) : string :=
  match s with
  | EmptyString => EmptyString
  | String c rest => if is_space c then lstrip rest else s
  end.

Fixpoint rstrip (s : string) : string :=
  match s with
  | EmptyString => EmptyString
  | String c rest =>
      match rstrip rest with
      | EmptyString => if is_space c then EmptyString else String c EmptyString
      | r => String c r
      end
  end.

Definition digit_value (c : ascii) : option Z :=
  let n := Z.of_nat (nat_of_ascii c) in
  if (48 <=? n) && (n <=? 57) then Some (n - 48) else None.

(** Digits with single underscores between digits. [prev] tells whether the
    previous character was a digit. *)
Fixpoint int_digits (s : string) (acc : Z) (prev : bool) : option Z :=
  match s with
  | EmptyString => if prev then Some acc else None
  | String c rest =>
      match digit_value c with
      | Some d => int_digits rest (acc * 10 + d) true
      | None => if Ascii.eqb c "_" && prev then int_digits rest acc false else None
      end
  end.

(** [int(s)], base ten. The limit on the number of digits of recent Python
    versions is not modelled. *)
Definition py_int (s : string) : result Z :=
  let body :=
    match rstrip (lstrip s) with
    | String "-" rest => option_map Z.opp (int_digits rest 0 false)
    | String "+" rest => int_digits rest 0 false
    | rest => int_digits rest 0 false
    end in
  match body with
  | Some z => Ok z
  | None => Raise ValueError
  end.

(** ["%d" % z], the decimal notation of the standard library. *)
Definition dec (z : Z) : string := NilZero.string_of_int (Z.to_int z).

(** [s.startswith(p)]. *)
Definition startswith (p s : string) : bool := String.prefix p s.

(** [s.endswith(p)]. *)
Definition endswith (p s : string) : bool :=
  let n := String.length s in
  let m := String.length p in
  Nat.leb m n && String.eqb (String.substring (n - m) m s) p.

(** [os.path.basename(s)]: what follows the last slash. *)
Definition basename (s : string) : string := last (split_on "/" s) EmptyString.

(** [n] zeros. *)
Fixpoint zeros (n : nat) : string :=
  match n with O => EmptyString | S n => String "0" (zeros n) end.

(** ["%0wd" % z]: zeros between the sign and the digits up to width [w]. *)
Definition dec_pad (w : nat) (z : Z) : string :=
  if z <? 0 then
    let d := dec (- z) in String "-" (append (zeros (w - 1 - String.length d)) d)
  else
    let d := dec z in append (zeros (w - String.length d)) d.

(** [os.path.join(a, b)]. *)
Definition path_join (a b : string) : string :=
  match a with
  | EmptyString => b
  | _ => if startswith "/" b then b
         else if endswith "/" a then append a b else append a (String "/" b)
  end.
