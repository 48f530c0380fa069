(** Specification vocabulary for interpolation over bad pixels. *)
From Coq Require Import ZArith List Bool Sorted.
From Verif Require Import Lib.Base Lib.Floats.
Import ListNotations.
Open Scope Z_scope.

(** Row-major order on pixels. *)
Definition pix_lt (p q : Z * Z) : Prop :=
  fst p < fst q \/ (fst p = fst q /\ snd p < snd q).

(** [l] lists exactly the pixels of an [nr x nc] array with property [P], once
    each, in row-major order. *)
Definition pixels_where (nr nc : Z) (P : Z -> Z -> Prop) (l : list (Z * Z)) : Prop :=
  StronglySorted pix_lt l /\
  forall r c, In (r, c) l <-> (0 <= r < nr /\ 0 <= c < nc) /\ P r c.

(** Chebyshev distance at most [w]. *)
Definition within (w r c r' c' : Z) : Prop := Z.abs (r - r') <= w /\ Z.abs (c - c') <= w.

Section S.
Context {A : Type} (bad : img bool).

Definition is_bad (r c : Z) : Prop := inb bad r c /\ px bad r c = true.
Definition is_good (r c : Z) : Prop := inb bad r c /\ px bad r c = false.

(** No good pixel within [w]. *)
Definition isolated (w r c : Z) : Prop :=
  forall r' c', is_good r' c' -> ~ within w r c r' c'.
End S.

(** The outcome of interpolating one array.
    - [filled]: pixels that were filled with noise first;
    - [draws]: the noise values;
    - [todo]: pixels to interpolate;
    - [support]: pixels whose values define the interpolant [f]. *)
Record interpolated {F : Type} (interpolator : list (Z * Z) -> list F -> result (Z * Z -> F))
  (before after : img F) (filled : list (Z * Z)) (draws : list F)
  (todo : Z -> Z -> Prop) (support : list (Z * Z)) : Prop := {
  ip_shape : nrows after = nrows before /\ ncols after = ncols before;
  ip_fun : exists f,
    interpolator support (map (fun p => px after (fst p) (snd p)) support) = Ok f /\
    forall r c, inb before r c -> todo r c -> px after r c = f (r, c);
  ip_filled : length draws = length filled /\
    forall k r c v, nth_error filled k = Some (r, c) -> nth_error draws k = Some v ->
      px after r c = v;
  ip_other : forall r c, inb before r c -> ~ todo r c -> ~ In (r, c) filled ->
    px after r c = px before r c
}.

(** An unusable pixel, as a boolean array. *)
Definition bad_pixels {F} `{FloatOps F} (weight : img F) (bmask : img Z) (bad_flags : Z)
  : img bool :=
  mkimg (nrows weight) (ncols weight)
    (fun r c => fleb (px weight r c) fzero || negb (Z.land (px bmask r c) bad_flags =? 0)).

(** [q] is the neighbour of the edge pixel [p] towards the interior, through an
    edge all of whose pixels are bad, and [q] is good. *)
Inductive edge_donor (bad : img bool) : Z * Z -> Z * Z -> Prop :=
| donor_first_row : forall c,
    (forall c', 0 <= c' < ncols bad -> px bad 0 c' = true) ->
    0 <= c < ncols bad -> px bad 1 c = false -> edge_donor bad (0, c) (1, c)
| donor_last_row : forall c,
    (forall c', 0 <= c' < ncols bad -> px bad (nrows bad - 1) c' = true) ->
    0 <= c < ncols bad -> px bad (nrows bad - 2) c = false ->
    edge_donor bad (nrows bad - 1, c) (nrows bad - 2, c)
| donor_first_col : forall r,
    (forall r', 0 <= r' < nrows bad -> px bad r' 0 = true) ->
    0 <= r < nrows bad -> px bad r 1 = false -> edge_donor bad (r, 0) (r, 1)
| donor_last_col : forall r,
    (forall r', 0 <= r' < nrows bad -> px bad r' (ncols bad - 1) = true) ->
    0 <= r < nrows bad -> px bad r (ncols bad - 2) = false ->
    edge_donor bad (r, ncols bad - 1) (r, ncols bad - 2).

(** Drawing the values that fill [filled]: nothing is drawn if there is nothing
    to fill. *)
Definition drawn {F RNG : Type} (normal : RNG -> nat -> F -> list F * RNG) (scale : F)
  (filled : list (Z * Z)) (rng : option RNG) (draws : list F) (rng' : option RNG) : Prop :=
  (filled = [] /\ draws = [] /\ rng' = rng) \/
  (filled <> [] /\ exists r r', rng = Some r /\ rng' = Some r' /\
     normal r (length filled) scale = (draws, r')).

(** A list of arrays interpolated one after the other, with the same pixel
    sets, sharing one random stream. *)
Inductive interpolated_all {F RNG : Type}
  (interpolator : list (Z * Z) -> list F -> result (Z * Z -> F))
  (normal : RNG -> nat -> F -> list F * RNG) (scale : F) (filled : list (Z * Z))
  (todo : Z -> Z -> Prop) (support : list (Z * Z))
  : list (img F) -> list (img F) -> option RNG -> option RNG -> Prop :=
| ia_nil : forall rng, interpolated_all interpolator normal scale filled todo support [] [] rng rng
| ia_cons : forall before after befores afters rng rng1 rng2 draws,
    drawn normal scale filled rng draws rng1 ->
    interpolated interpolator before after filled draws todo support ->
    interpolated_all interpolator normal scale filled todo support befores afters rng1 rng2 ->
    interpolated_all interpolator normal scale filled todo support
      (before :: befores) (after :: afters) rng rng2.

(** The pixels to interpolate: the bad ones, except the isolated ones when
    those are filled with noise. *)
Definition to_interpolate (bad : img bool) (fill : bool) (iso_buff : Z) (r c : Z) : Prop :=
  px bad r c = true /\ ~ (fill = true /\ isolated bad iso_buff r c).

(** Two outcomes that differ at most in the returned values, related by [R]. *)
Definition same_outcome {A B} (R : A -> B -> Prop) (x : result A) (y : result B) : Prop :=
  match x, y with
  | Ok a, Ok b => R a b
  | Raise e, Raise e' => e = e'
  | _, _ => False
  end.

(** Equal up to array equality. *)
Definition opt_rel {A B} (R : A -> B -> Prop) (x : option A) (y : option B) : Prop :=
  match x, y with
  | Some a, Some b => R a b
  | None, None => True
  | _, _ => False
  end.

(** [after] is [before] with every pixel that has a donor replaced by the value
    of its donor in [before]. *)
Definition donated {A} (bad : img bool) (before after : img A) : Prop :=
  nrows after = nrows before /\ ncols after = ncols before /\
  forall r c, inb before r c ->
    (forall r' c', edge_donor bad (r, c) (r', c') -> px after r c = px before r' c') /\
    ((forall q, ~ edge_donor bad (r, c) q) -> px after r c = px before r c).
