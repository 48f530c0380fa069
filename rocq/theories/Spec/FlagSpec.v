(** Specification vocabulary for the masking tests. *)
From Coq Require Import ZArith List Bool.
From Verif Require Import Lib.Base Lib.Floats.
Open Scope Z_scope.

Inductive edge : Set := FirstRow | LastRow | FirstCol | LastCol.

Definition on_edge (nr nc : Z) (e : edge) (r c : Z) : Prop :=
  match e with
  | FirstRow => r = 0
  | LastRow => r = nr - 1
  | FirstCol => c = 0
  | LastCol => c = nc - 1
  end.

(** Some flag of [flags] is set in [b]. *)
Definition flagged (flags b : Z) : Prop :=
  exists k, 0 <= k /\ Z.testbit flags k = true /\ Z.testbit b k = true.

Section S.
Context {F : Type} `{FloatOps F}.

Definition no_weight (w : F) : Prop := fleb w fzero = true.

(** A pixel is unusable: weight at most zero, or flagged. *)
Definition unusable (weight : img F) (bmask : img Z) (flags : Z) (r c : Z) : Prop :=
  no_weight (px weight r c) \/ flagged flags (px bmask r c).
End S.

(** [n] is the number of pixels of an [nr x nc] array with property [P]. *)
Definition counts (nr nc : Z) (P : Z -> Z -> Prop) (n : Z) : Prop :=
  exists l : list (Z * Z), NoDup l /\ Z.of_nat (length l) = n /\
    forall r c, In (r, c) l <-> (0 <= r < nr /\ 0 <= c < nc) /\ P r c.

(** The pixel is not set in an optional mask. *)
Definition counted (m : option (img bool)) (r c : Z) : Prop :=
  match m with Some m => px m r c = false | None => True end.
