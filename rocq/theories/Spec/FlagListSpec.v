(** Vocabulary for lists of mask flags in the configuration. *)
From Coq Require Import ZArith List Bool.
Import ListNotations.
Open Scope Z_scope.

(** The mask value [v] has one of the flags of the list. *)
Definition has_a_flag (l : list Z) (v : Z) : Prop := exists f, In f l /\ Z.land v f <> 0.

(** No two entries of the list share a bit. *)
Definition no_shared_bits (l : list Z) : Prop :=
  ForallOrdPairs (fun a b => Z.land a b = 0) l.
