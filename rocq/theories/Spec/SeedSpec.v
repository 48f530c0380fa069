(** The seeds of a run. *)
From Coq Require Import ZArith List Bool.
Import ListNotations.
Open Scope Z_scope.

Section S.
Variable rng : Type.
Variable randint : rng -> Z -> Z -> Z * rng.

(** Consecutive draws from one generator, with these bounds. *)
Fixpoint draws (g : rng) (bounds : list (Z * Z)) : list Z :=
  match bounds with
  | [] => []
  | (low, high) :: rest => fst (randint g low high) :: draws (snd (randint g low high)) rest
  end.
End S.

(** The order in which seeds are drawn: one for each slice, then for each image
    one for each of its noise fields and one for its mask. *)
Definition seed_bounds (slices images noises : nat) : list (Z * Z) :=
  repeat (1, 2 ^ 32 - 1) slices ++ concat (repeat (repeat (1, 2 ^ 30) noises ++ [(1, 2 ^ 30)]) images).
