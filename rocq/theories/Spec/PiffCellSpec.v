(** Vocabulary for C89 and C90. *)
From Coq Require Import ZArith List Reals String.
From Verif Require Import Lib.PyDict.
Import ListNotations.
Open Scope Z_scope.

(** Cell [k] of [n] cells of width [g] that start at zero: the first and the
    last one extend outwards without limit. *)
Definition cell_covers (g n k : Z) (v : R) : Prop :=
  0 <= k < n /\
  (k = 0 \/ (IZR (k * g) <= v)%R) /\
  (k = n - 1 \/ (v < IZR ((k + 1) * g))%R).

(** The value that a list of named and nameless cards gives a name: that of the
    last card whose name is [name] under the reading [read]. *)
Fixpoint last_named {V} (read : string -> string) (cards : list (option string * V)) (name : string)
  : option V :=
  match cards with
  | [] => None
  | (k, v) :: rest =>
      match last_named read rest name with
      | Some u => Some u
      | None => match k with
                | Some k => if String.eqb (read k) name then Some v else None
                | None => None
                end
      end
  end.

(** The same card, except that the cases of the letters of its name may differ. *)
Definition same_card {V} (read : string -> string) (a b : option string * V) : Prop :=
  snd a = snd b /\ option_map read (fst a) = option_map read (fst b).
