(** Vocabulary for slices of single epoch images. *)
From Coq Require Import ZArith List Reals.
From Flocq Require Import Core.Raux Core.Zaux.
From Verif Require Import Lib.Base Lib.Floats Model.TapeBumps Model.Cache Model.SeImage.
Import ListNotations.
Open Scope Z_scope.

(** Pixel [(r, c)] is inside of the bounds (both ends included). *)
Definition in_zbounds (b : zbounds) (r c : Z) : Prop :=
  zrowmin b <= r <= zrowmax b /\ zcolmin b <= c <= zcolmax b.

(** The bounds contain [n] rows and [n] columns. *)
Definition square_of (b : zbounds) (n : Z) : Prop :=
  zrowmax b - zrowmin b + 1 = n /\ zcolmax b - zcolmin b + 1 = n.

(** [a] is the complete window of [n x n] pixels that starts at [(y, x)] in a
    larger image whose pixels are given by [src]. *)
Definition window_of {A} (src : Z -> Z -> A) (y x n : Z) (a : img A) : Prop :=
  nrows a = n /\ ncols a = n /\
  forall i j, 0 <= i < n -> 0 <= j < n -> px a i j = src (y + i) (x + j).

(** Integer [i] is the pixel centre nearest to the real position [v]; a
    position half way between two centres belongs to the larger one. *)
Definition nearest (v : R) (i : Z) : Prop := (IZR i - / 2 <= v < IZR i + / 2)%R.

(** [(r, c)] lies in a tape bump rectangle listed for the CCD. *)
Definition in_tape_bump (ccdnum r c : Z) : Prop :=
  exists bumps b, In (ccdnum, bumps) tape_bumps /\ In b bumps /\
    row1 b <= r <= row2 b /\ col1 b <= c <= col2 b.

(** The tape bump and suspect bits of DES masks. *)
Definition TAPEBUMP_BIT : Z := 14.
Definition SUSPECT_BIT : Z := 11.

(** Mask value [v'] is [v] with the tape bump bit on and the suspect bit off. *)
Definition bumped (v v' : Z) : Prop :=
  forall k, 0 <= k -> Z.testbit v' k =
    if k =? TAPEBUMP_BIT then true else if k =? SUSPECT_BIT then false else Z.testbit v k.

(** Two slices have the same content: equal positions and images, and masks
    that are equal as arrays. *)
Definition same_slice {F} (a b : slice_data (F := F)) : Prop :=
  sl_x_start a = sl_x_start b /\ sl_y_start a = sl_y_start b /\ sl_box_size a = sl_box_size b /\
  sl_image a = sl_image b /\ sl_weight a = sl_weight b /\ sl_noises a = sl_noises b /\
  img_eq (sl_bmask a) (sl_bmask b).

(** An array of the given (rows, columns). *)
Definition shaped {A} (a : img A) (shape : Z * Z) : Prop :=
  nrows a = fst shape /\ ncols a = snd shape.

(** The keys asked for in a history of a cached function. *)
Definition calls {K} (ops : list (@cache_op K)) : list K :=
  flat_map (fun op => match op with Call k => [k] | Clear => [] end) ops.

(** The same request served without any cache. *)
Definition read_fresh {F} {FO : FloatOps F} (pow10 : F -> F) (normal : Z -> Z -> F) (store : F -> F)
  (disk : Z -> img Z) (q : read_request (F := F)) : result (slice_data * img Z) :=
  set_slice pow10 normal store (rq_source q) (rq_tape q) (rq_seeds q) (disk (rq_mask q)) (rq_bounds q).

(** A pixel (background subtracted) and a zero point scale away from the limits
    of the range of doubles. *)
Definition ordinary_pixel (signal wgt scale : R) : Prop :=
  ((signal = 0 \/ bpow radix2 (-300) <= Rabs signal <= bpow radix2 300) /\
   (wgt = 0 \/ bpow radix2 (-300) <= Rabs wgt <= bpow radix2 300) /\
   bpow radix2 (-100) <= scale <= bpow radix2 100)%R.
