(** Sums of numbers in any order. *)
From Coq Require Import List Permutation.
From Verif Require Import Lib.Floats.
Import ListNotations.

Section G.
Context {F : Type} {FO : FloatOps F}.

(** [s] is got from the numbers [l], each used once, and zeros by additions. *)
Inductive adds : list F -> F -> Prop :=
| adds_none : adds [] fzero
| adds_one x : adds [x] x
| adds_two l1 l2 l s1 s2 : adds l1 s1 -> adds l2 s2 -> Permutation (l1 ++ l2) l -> adds l (fadd s1 s2).

(** [t] is the product of three numbers, the order of the two multiplications being free. *)
Definition product3 (p a b t : F) : Prop :=
  t = fmul p (fmul a b) \/ t = fmul (fmul p a) b \/ t = fmul (fmul p b) a.
End G.
