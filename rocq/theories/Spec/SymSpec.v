(** Specification vocabulary for the symmetrization functions. *)
From Coq Require Import ZArith List Bool.
From Verif Require Import Lib.Base Lib.Floats.
Open Scope Z_scope.

(** The pixel of an [n x n] array that a counterclockwise rotation by 90
    degrees brings onto (i, j). *)
Definition rot_source (n i j : Z) : Z * Z := (j, n - 1 - i).

(** Is the pixel excluded by an optional mask? *)
Definition excluded (m : option (img bool)) (i j : Z) : bool :=
  match m with Some m => px m i j | None => false end.

(** Is bit [k] selected by an optional set of flags? *)
Definition selected (s : option Z) (k : Z) : bool :=
  match s with Some s => Z.testbit s k | None => true end.

(** An [n x n] mask is unchanged by a rotation by 90 degrees. *)
Definition rot_symmetric {A} (m : img A) : Prop :=
  nrows m = ncols m /\
  forall i j, inb m i j ->
    px m i j = px m (fst (rot_source (nrows m) i j)) (snd (rot_source (nrows m) i j)).

(** An optional mask has the shape of an array. *)
Definition fits {A} (m : option (img bool)) (w : img A) : Prop :=
  match m with
  | Some m => nrows m = nrows w /\ ncols m = ncols w
  | None => True
  end.

(** What is handed to the rotation routine: an array that is 1 on the pixels
    of interest and 0 elsewhere. *)
Definition indicator {F} `{FloatOps F} (nr nc : Z) (p : Z -> Z -> bool) : img F :=
  mkimg nr nc (fun i j => if p i j then fone else fzero).

(** A pixel that takes part: zero weight, not excluded. *)
Definition zero_weight_at {F} `{FloatOps F} (w : img F) (nsm : option (img bool))
  (i j : Z) : bool :=
  feqb (px w i j) fzero && negb (excluded nsm i j).

(** A pixel that takes part for bit [k]: the bit is set, not excluded. *)
Definition bit_at (b : img Z) (nsm : option (img bool)) (k i j : Z) : bool :=
  Z.testbit (px b i j) k && negb (excluded nsm i j).

(** The routine only looks at the contents of its input array. *)
Definition array_function {A B} (f : img A -> img B) : Prop :=
  forall x y, img_eq x y -> forall i j, inb x i j -> px (f x) i j = px (f y) i j.
