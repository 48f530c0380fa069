(** Python-level vocabulary shared by all the model files: exceptions as
    values, integer ranges, and numpy-like two dimensional arrays.

    Nothing in this file models a particular function of the repository; it
    fixes how Python and numpy constructs are rendered in Gallina. *)
From Coq Require Import ZArith List Bool.
Import ListNotations.
Open Scope Z_scope.

(** Python exception classes that the modelled code can raise. *)
Inductive pyexc : Set :=
| ValueError
| RuntimeError
| AssertionError
| KeyError
| IndexError
| AttributeError
| TypeError
| ZeroDivisionError
| UnboundLocalError
| OverflowError
| IOError
| OtherError.

(** Outcome of a Python call: a value, or an exception that propagates. *)
Inductive result (A : Type) : Type :=
| Ok (a : A)
| Raise (e : pyexc).
Arguments Ok {A} a.
Arguments Raise {A} e.

Definition bind {A B} (m : result A) (k : A -> result B) : result B :=
  match m with
  | Ok a => k a
  | Raise e => Raise e
  end.

Notation "x <- m ;; k" := (bind m (fun x => k))
  (at level 100, m at next level, right associativity).
Notation "' p <- m ;; k" := (bind m (fun p => k))
  (at level 100, p pattern, m at next level, right associativity).

(** [range(a, b)] of Python, as a list of integers. *)
Definition zrange (a b : Z) : list Z :=
  map (fun k => a + Z.of_nat k) (seq 0 (Z.to_nat (b - a))).

(** Python's normalisation of a possibly negative index for a sequence of
    length [n]: [None] stands for IndexError. *)
Definition pyindex (n i : Z) : option Z :=
  if (0 <=? i) && (i <? n) then Some i
  else if (i <? 0) && (0 <=? n + i) then Some (n + i)
  else None.

(** Python's [list[i]] for any (possibly negative) index. *)
Definition pynth {A} (l : list A) (i : Z) : result A :=
  match pyindex (Z.of_nat (length l)) i with
  | Some k => match nth_error l (Z.to_nat k) with
              | Some a => Ok a
              | None => Raise IndexError
              end
  | None => Raise IndexError
  end.

(** The effective bounds of a basic slice [start:stop] on an axis of length
    [n]: negative values count from the end, then both are clipped. *)
Definition pyslice (n start stop : Z) : Z * Z :=
  let norm i := if i <? 0 then Z.max 0 (n + i) else Z.min i n in
  (norm start, norm stop).

(** A two dimensional numpy array: its shape and its pixels. Only pixels with
    [0 <= r < nrows] and [0 <= c < ncols] are part of the array. *)
Record img (A : Type) : Type := mkimg {
  nrows : Z;
  ncols : Z;
  px : Z -> Z -> A
}.
Arguments mkimg {A} nrows ncols px.
Arguments nrows {A} i.
Arguments ncols {A} i.
Arguments px {A} i r c.

Definition inb {A} (im : img A) (r c : Z) : Prop :=
  0 <= r < nrows im /\ 0 <= c < ncols im.

Definition inbb (nr nc r c : Z) : bool :=
  (0 <=? r) && (r <? nr) && (0 <=? c) && (c <? nc).

(** All pixel positions of an [nr x nc] array in row-major (C) order. *)
Definition allpix (nr nc : Z) : list (Z * Z) :=
  flat_map (fun r => map (fun c => (r, c)) (zrange 0 nc)) (zrange 0 nr).

(** [numpy.ravel]. *)
Definition ravel {A} (im : img A) : list A :=
  map (fun rc => px im (fst rc) (snd rc)) (allpix (nrows im) (ncols im)).

Definition same_shape {A B} (a : img A) (b : img B) : bool :=
  (nrows a =? nrows b) && (ncols a =? ncols b).

(** Elementwise operations. *)
Definition imap {A B} (f : A -> B) (a : img A) : img B :=
  mkimg (nrows a) (ncols a) (fun r c => f (px a r c)).

Definition imap2 {A B C} (f : A -> B -> C) (a : img A) (b : img B) : img C :=
  mkimg (nrows a) (ncols a) (fun r c => f (px a r c) (px b r c)).

Definition full {A} (nr nc : Z) (v : A) : img A := mkimg nr nc (fun _ _ => v).

(** [a[msk] = v] for a boolean array [msk] and a scalar [v]. *)
Definition where_set {A} (a : img A) (msk : img bool) (v : A) : img A :=
  mkimg (nrows a) (ncols a) (fun r c => if px msk r c then v else px a r c).

(** [np.any] and [np.all] of a boolean array. *)
Definition np_any (m : img bool) : bool := existsb (fun b => b) (ravel m).
Definition np_all (m : img bool) : bool := forallb (fun b => b) (ravel m).

(** [np.sum] of a boolean array. *)
Definition np_count (m : img bool) : Z :=
  Z.of_nat (length (filter (fun b => b) (ravel m))).

(** Number of pixels, [a.size]. *)
Definition isize {A} (a : img A) : Z := nrows a * ncols a.

(** One row, [a[r, :]], and one column, [a[:, c]], as lists. *)
Definition row_of {A} (a : img A) (r : Z) : list A :=
  map (fun c => px a r c) (zrange 0 (ncols a)).
Definition col_of {A} (a : img A) (c : Z) : list A :=
  map (fun r => px a r c) (zrange 0 (nrows a)).

(** [a[i, :]] and [a[:, i]] with Python index checking. *)
Definition np_row {A} (a : img A) (i : Z) : result (list A) :=
  match pyindex (nrows a) i with
  | Some r => Ok (row_of a r)
  | None => Raise IndexError
  end.
Definition np_col {A} (a : img A) (i : Z) : result (list A) :=
  match pyindex (ncols a) i with
  | Some c => Ok (col_of a c)
  | None => Raise IndexError
  end.

(** [np.rot90(a)]: rotate counterclockwise once. *)
Definition rot90 {A} (a : img A) : img A :=
  mkimg (ncols a) (nrows a) (fun i j => px a j (ncols a - 1 - i)).

(** First match in an association list keyed by pixel positions. *)
Fixpoint pix_lookup {A} (l : list ((Z * Z) * A)) (r c : Z) : option A :=
  match l with
  | [] => None
  | ((r', c'), a) :: l' =>
      if (r =? r') && (c =? c') then Some a else pix_lookup l' r c
  end.

(** Positions at which a boolean array is True, row-major. *)
Definition true_pix (m : img bool) : list (Z * Z) :=
  filter (fun rc => px m (fst rc) (snd rc)) (allpix (nrows m) (ncols m)).

(** [a[msk] = vals] for a boolean array and a 1d array of values: the values
    are used in row-major order, and their number must match (a single value
    would be broadcast by numpy; that case is rendered by [where_set]). *)
Definition mask_assign {A} (a : img A) (msk : img bool) (vals : list A)
  : result (img A) :=
  let ps := true_pix msk in
  if Nat.eqb (length ps) (length vals)
  then Ok (mkimg (nrows a) (ncols a)
             (fun r c => match pix_lookup (combine ps vals) r c with
                         | Some v => v
                         | None => px a r c
                         end))
  else Raise ValueError.

(** [a[ys, xs] = vals] with integer index arrays; later writes win. *)
Definition idx_assign {A} (a : img A) (ps : list (Z * Z)) (vals : list A)
  : img A :=
  mkimg (nrows a) (ncols a)
    (fun r c => match pix_lookup (rev (combine ps vals)) r c with
                | Some v => v
                | None => px a r c
                end).

(** Two images are the same array: same shape and same pixels. *)
Definition img_eq {A} (a b : img A) : Prop :=
  nrows a = nrows b /\ ncols a = ncols b /\
  forall r c, inb a r c -> px a r c = px b r c.

(** Well-formed shape. *)
Definition wf {A} (a : img A) : Prop := 0 <= nrows a /\ 0 <= ncols a.

(** An array literal, for examples. *)
Definition of_rows {A} (d : A) (rows : list (list A)) : img A :=
  mkimg (Z.of_nat (length rows))
        (match rows with [] => 0 | r :: _ => Z.of_nat (length r) end)
        (fun r c => nth (Z.to_nat c) (nth (Z.to_nat r) rows []) d).
