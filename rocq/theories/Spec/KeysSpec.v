(** Vocabulary for objects as keys of caches. *)
From Coq Require Import ZArith List Bool String Ascii.
From Coq Require Import List.
From Verif Require Import Lib.Base Lib.PyDict Model.Keys Spec.DesInfoSpec.
Import ListNotations.
Open Scope Z_scope.

(** Different numbers are printed differently, without commas and parentheses. True
    of [repr] of Python's floats. *)
Definition faithful {F} (show : F -> string) : Prop :=
  (forall x y, show x = show y -> x = y) /\
  forall x, free_of ","%char (show x) /\ free_of ")"%char (show x).

(** The answers of a program without a cache: the function on what the object holds
    at that time. *)
Fixpoint answers {C E V} (f : C -> E -> result V) (h : nat -> C) (us : list (use (C := C) (E := E)))
  : list (result V) :=
  match us with
  | [] => []
  | Ask a e :: us => f (h a) e :: answers f h us
  | Assign a g :: us => answers f (fun b => if Nat.eqb b a then g (h a) else h b) us
  | Forget :: us => answers f h us
  end.

(** The objects during a run of the program. *)
Fixpoint seen {C E} (h : nat -> C) (us : list (use (C := C) (E := E))) (c : C) : Prop :=
  (exists a, h a = c) \/
  match us with
  | [] => False
  | Ask _ _ :: us => seen h us c
  | Assign a g :: us => seen (fun b => if Nat.eqb b a then g (h a) else h b) us c
  | Forget :: us => seen h us c
  end.

(** No attributes are assigned. *)
Fixpoint no_assignments {C E} (us : list (use (C := C) (E := E))) : Prop :=
  match us with
  | [] => True
  | Assign _ _ :: _ => False
  | _ :: us => no_assignments us
  end.

(** Hashes tell the keys of a program apart, for the objects [known]: with the same
    other arguments, equal hashes are those of equal texts. *)
Definition no_collision {C E} (print : C -> string) (hash_text : string -> Z) (hash_key : Z -> E -> Z)
  (known : C -> Prop) : Prop :=
  forall c c' e, known c -> known c' ->
    hash_key (hash_text (print c)) e = hash_key (hash_text (print c')) e -> print c = print c'.
