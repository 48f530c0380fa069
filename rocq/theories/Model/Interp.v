(** Model of pizza_cutter/slice_utils/interpolate.py. *)
From Coq Require Import ZArith List Bool.
From Verif Require Import Lib.Base Lib.Floats.
Import ListNotations.
Open Scope Z_scope.

(** State of the search loops: contents of the work arrays [bad_ind],
    [bad_iso] and [good_ind] up to [ibad] and [igood]. *)
Record nearby_state := mkns {
  ns_bad : list Z;
  ns_iso : list Z;
  ns_good : list Z
}.

(** Lines 56-68 and 81-93: the clipped window of half-width [w] around [x] on
    an axis of length [n], as (start, end) inclusive. *)
Definition clip_window (n x w : Z) : Z * Z :=
  let s := x - w in
  let e := x + w in
  ((if s <? 0 then 0 else s), (if n - 1 <? e then n - 1 else e)).

(** The pixels visited by the loops at lines 71-72 and 95-96. *)
Definition window_pix (nr nc row col w : Z) : list (Z * Z) :=
  let '(rs, re) := clip_window nr row w in
  let '(cs, ce) := clip_window nc col w in
  flat_map (fun rc => map (fun cc => (rc, cc)) (zrange cs (ce + 1))) (zrange rs (re + 1)).

(** Lines 98-105 for one pixel of the window: append to [good_ind] if there is
    room, otherwise the RuntimeError of line 101. *)
Definition push_good (bad_msk : img bool) (ngood : Z) (acc : result (list Z)) (p : Z * Z)
  : result (list Z) :=
  g <- acc ;;
  let '(rc, cc) := p in
  if px bad_msk rc cc then Ok g
  else if Z.of_nat (length g) =? ngood then Raise RuntimeError
  else Ok (g ++ [rc * ncols bad_msk + cc]).

(** Lines 51-107 for one pixel (row, col). A write of [bad_ind[ibad]] past the
    end of the work array is not checked by numba; here it is [OtherError], so
    that a theorem saying that the call returns excludes it. *)
Definition nearby_step (bad_msk : img bool) (ngood buff iso_buff : Z)
  (acc : result nearby_state) (p : Z * Z) : result nearby_state :=
  st <- acc ;;
  let '(row, col) := p in
  if px bad_msk row col then
    if ngood <=? Z.of_nat (length (ns_bad st)) then Raise OtherError else
    (* 54 *)
    let ind := row * ncols bad_msk + col in
    (* 70-78 *)
    let no_good := forallb (fun q => px bad_msk (fst q) (snd q))
                     (window_pix (nrows bad_msk) (ncols bad_msk) row col iso_buff) in
    (* 80-93: when buff = iso_buff the window is reused *)
    let win := if buff =? iso_buff
               then window_pix (nrows bad_msk) (ncols bad_msk) row col iso_buff
               else window_pix (nrows bad_msk) (ncols bad_msk) row col buff in
    (* 95-105 *)
    g <- fold_left (push_good bad_msk ngood) win (Ok (ns_good st)) ;;
    Ok (mkns (ns_bad st ++ [ind]) (ns_iso st ++ [if no_good then 1 else 0]) g)
  else Ok st.

(** interpolate.py:10-113 [_get_nearby_good_pixels]. *)
Definition get_nearby_good_pixels (bad_msk : img bool) (nbad buff iso_buff : Z)
  : result nearby_state :=
  let ngood := nbad * (2 * buff + 1) ^ 2 in
  fold_left (nearby_step bad_msk ngood buff iso_buff)
    (allpix (nrows bad_msk) (ncols bad_msk)) (Ok (mkns [] [] [])).

(** numpy.unique of an integer array: sorted, without repetitions. *)
Fixpoint insert_unique (x : Z) (l : list Z) : list Z :=
  match l with
  | [] => [x]
  | y :: l' => if x <? y then x :: l
               else if x =? y then l
               else y :: insert_unique x l'
  end.
Definition np_unique (l : list Z) : list Z := fold_right insert_unique [] l.

(** numpy.unravel_index for a C-ordered array with [nc] columns. *)
Definition unravel (nc i : Z) : Z * Z := (i / nc, i mod nc).

(** Entries of [l] whose companion in [flags] is 1: [l[flags == 1]]. *)
Definition where_one {A} (l : list A) (flags : list Z) : list A :=
  map fst (filter (fun p => snd p =? 1) (combine l flags)).

(** [im[ys, xs]] for index arrays given as a list of positions. *)
Definition gather {A} (im : img A) (ps : list (Z * Z)) : list A :=
  map (fun p => px im (fst p) (snd p)) ps.

(** [m[ys, xs] = False]. *)
Definition unmark (m : img bool) (ps : list (Z * Z)) : img bool :=
  idx_assign m ps (map (fun _ => false) ps).

Section Interp.
Context {F : Type} `{FloatOps F}.
(** State of the numpy random generator and its [normal(size=n, scale=s)]. *)
Context {RNG : Type} (normal : RNG -> nat -> F -> list F * RNG).
(** scipy's CloughTocher2DInterpolator(points, values, fill_value=0.0): building
    it may raise; the result is evaluated point by point. *)
Context (interpolator : list (Z * Z) -> list F -> result (Z * Z -> F)).
(** numpy.median. *)
Context (median : list F -> F).

(** interpolate.py:219-246 [_interp_one]. Returns the image and the state of
    the random generator. *)
Definition interp_one (image : img F) (bad_yx good_yx : list (Z * Z)) (bad_msk : img bool)
  (noise_fill_yx : option (list (Z * Z))) (med_weight : F) (rng : option RNG)
  : result (img F * option RNG) :=
  (* 232-238 *)
  '(interp_image, rng) <-
    match noise_fill_yx with
    | None => Ok (image, rng)
    | Some ps =>
        match rng with
        | None => Raise AttributeError
        | Some r =>
            let '(draws, r') := normal r (length ps) (fdiv fone (fsqrt med_weight)) in
            Ok (idx_assign image ps draws, Some r')
        end
    end ;;
  (* 240-246 *)
  f <- interpolator good_yx (gather interp_image good_yx) ;;
  out <- mask_assign interp_image bad_msk (map f bad_yx) ;;
  Ok (out, rng).

(** The search of lines 159-164, 303-308, 327-333: positions of the bad pixels,
    their isolation flags and the positions of the good pixels. *)
Definition find_support (bad_msk : img bool) (buff iso_buff : Z)
  : result (list (Z * Z) * list Z * list (Z * Z)) :=
  st <- get_nearby_good_pixels bad_msk (np_count bad_msk) buff iso_buff ;;
  Ok (map (unravel (ncols bad_msk)) (ns_bad st), ns_iso st,
      map (unravel (ncols bad_msk)) (np_unique (ns_good st))).

(** interpolate.py:116-216 [interpolate_image_at_mask]. *)
Definition interpolate_image_at_mask (image : img F) (bad_msk : img bool) (maxfrac : F)
  (buff : Z) (fill_isolated_with_noise : bool) (weight : option F) (rng : option RNG)
  (iso_buff : Z) : result (option (img F) * option RNG) :=
  (* 152-156 *)
  let npix := isize bad_msk in
  let nbad := np_count bad_msk in
  let bm_frac := fdiv (fofZ nbad) (fofZ npix) in
  if fleb bm_frac maxfrac && (nbad <? npix) then
    (* 159-164 *)
    '(bad_yx, bad_iso, good_yx) <- find_support bad_msk buff iso_buff ;;
    (* 166-201 *)
    '(interp_image, bad_msk, bad_yx, good_yx, rng) <-
      (if fill_isolated_with_noise then
         match rng, weight with
         | None, _ => Raise RuntimeError
         | Some _, None => Raise RuntimeError
         | Some r, Some w =>
             let fill := where_one bad_yx bad_iso in
             if existsb (fun f => f =? 1) bad_iso then
               let bad_msk := unmark bad_msk fill in
               '(bad_yx, _, good_yx) <- find_support bad_msk buff iso_buff ;;
               let '(draws, r') := normal r (length fill) (fdiv fone (fsqrt w)) in
               Ok (idx_assign image fill draws, bad_msk, bad_yx, good_yx, Some r')
             else Ok (image, bad_msk, bad_yx, good_yx, rng)
         end
       else Ok (image, bad_msk, bad_yx, good_yx, rng)) ;;
    (* 203-213 *)
    f <- interpolator good_yx (gather interp_image good_yx) ;;
    out <- mask_assign interp_image bad_msk (map f bad_yx) ;;
    Ok (Some out, rng)
  else Ok (None, rng).

(** interpolate.py:353-369: the noise fields, one after the other. *)
Fixpoint interp_noises (noises : list (img F)) (bad_yx good_yx : list (Z * Z))
  (bad_msk : img bool) (noise_fill_yx : option (list (Z * Z))) (med_weight : F)
  (rng : option RNG) : result (list (img F) * option RNG) :=
  match noises with
  | [] => Ok ([], rng)
  | noise :: rest =>
      '(n, rng) <- interp_one noise bad_yx good_yx bad_msk noise_fill_yx med_weight rng ;;
      '(ns, rng) <- interp_noises rest bad_yx good_yx bad_msk noise_fill_yx med_weight rng ;;
      Ok (n :: ns, rng)
  end.

(** interpolate.py:249-374 [interpolate_image_and_noise]. [None] stands for
    the returned pair (None, None). *)
Definition interpolate_image_and_noise (image : img F) (noises : list (img F))
  (weight : img F) (bmask : img Z) (bad_flags : Z) (rng : option RNG) (maxfrac : F)
  (buff : Z) (fill_isolated_with_noise : bool) (iso_buff : Z)
  : result (option (img F * list (img F)) * option RNG) :=
  (* 292 *)
  let bad_msk := imap2 (fun w b => fleb w fzero || negb (Z.land b bad_flags =? 0))
                       weight bmask in
  if np_any bad_msk then
    (* 297-298 *)
    if fltb maxfrac (fdiv (fofZ (np_count bad_msk)) (fofZ (isize bad_msk))) || np_all bad_msk
    then Ok (None, rng)
    else
      (* 300-308 *)
      let med_weight := median (gather weight (true_pix (imap negb bad_msk))) in
      '(bad_yx, bad_iso, good_yx) <- find_support bad_msk buff iso_buff ;;
      (* 310-335: [noise_fill_yx] stays unbound if nothing is isolated *)
      '(bad_msk, bad_yx, good_yx, noise_fill_yx) <-
        (if fill_isolated_with_noise then
           match rng with
           | None => Raise RuntimeError
           | Some _ =>
               if existsb (fun f => f =? 1) bad_iso then
                 let fill := where_one bad_yx bad_iso in
                 let bad_msk := unmark bad_msk fill in
                 '(bad_yx, _, good_yx) <- find_support bad_msk buff iso_buff ;;
                 Ok (bad_msk, bad_yx, good_yx, Some fill)
               else Raise UnboundLocalError
           end
         else Ok (bad_msk, bad_yx, good_yx, None)) ;;
      (* 337-371 *)
      '(im, rng) <- interp_one image bad_yx good_yx bad_msk noise_fill_yx med_weight rng ;;
      '(ns, rng) <- interp_noises noises bad_yx good_yx bad_msk noise_fill_yx med_weight rng ;;
      Ok (Some (im, ns), rng)
  else
    (* 372-374 *)
    Ok (Some (image, noises), rng).

(** ** copy_masked_edges_image_and_noise, interpolate.py:377-434 *)

(** The four kinds of arrays that are updated together. *)
Record edge_state := mkes {
  es_image : img F;
  es_noises : list (img F);
  es_bmask : img Z;
  es_weight : img F
}.

(** [a[i, ~m] = a[ii, ~m]] for row numbers [i], [ii] and a boolean list [m]. *)
Definition copy_row {A} (a : img A) (i ii : Z) (m : list bool) : img A :=
  mkimg (nrows a) (ncols a)
    (fun r c => if (r =? i) && (0 <=? c) && negb (nth (Z.to_nat c) m true)
                then px a ii c else px a r c).

(** [a[~m, i] = a[~m, ii]]. *)
Definition copy_col {A} (a : img A) (i ii : Z) (m : list bool) : img A :=
  mkimg (nrows a) (ncols a)
    (fun r c => if (c =? i) && (0 <=? r) && negb (nth (Z.to_nat r) m true)
                then px a r ii else px a r c).

Definition es_map (f : forall A, img A -> img A) (st : edge_state) : edge_state :=
  mkes (f F (es_image st)) (map (f F) (es_noises st)) (f Z (es_bmask st)) (f F (es_weight st)).

(** Lines 413-414 and 424-425: unusable pixels of a row or column given as
    lists of weights and mask values. *)
Definition bad_list (bad_flags : Z) (w : list F) (b : list Z) : list bool :=
  map (fun p => fleb (fst p) fzero || negb (Z.land (snd p) bad_flags =? 0)) (combine w b).

Definition all_true (l : list bool) : bool := forallb (fun b => b) l.

(** One pass of the loop at line 412 for the pair (i, ii). *)
Definition edge_pass (weight : img F) (bmask : img Z) (bad_flags : Z) (st : edge_state)
  (i ii : Z) : result edge_state :=
  (* 413-422 *)
  wi <- np_row weight i ;; bi <- np_row bmask i ;;
  wii <- np_row weight ii ;; bii <- np_row bmask ii ;;
  let bad_i := bad_list bad_flags wi bi in
  let bad_ii := bad_list bad_flags wii bii in
  st <- (if all_true bad_i && negb (all_true bad_ii) then
           match pyindex (nrows weight) i, pyindex (nrows weight) ii with
           | Some k, Some kk => Ok (es_map (fun A a => copy_row a k kk bad_ii) st)
           | _, _ => Raise IndexError
           end
         else Ok st) ;;
  (* 424-432 *)
  wi <- np_col weight i ;; bi <- np_col bmask i ;;
  wii <- np_col weight ii ;; bii <- np_col bmask ii ;;
  let bad_i := bad_list bad_flags wi bi in
  let bad_ii := bad_list bad_flags wii bii in
  if all_true bad_i && negb (all_true bad_ii) then
    match pyindex (ncols weight) i, pyindex (ncols weight) ii with
    | Some k, Some kk => Ok (es_map (fun A a => copy_col a k kk bad_ii) st)
    | _, _ => Raise IndexError
    end
  else Ok st.

(** interpolate.py:377-434 [copy_masked_edges_image_and_noise]. *)
Definition copy_masked_edges_image_and_noise (image : img F) (noises : list (img F))
  (weight : img F) (bmask : img Z) (bad_flags : Z) : result edge_state :=
  st <- edge_pass weight bmask bad_flags (mkes image noises bmask weight) 0 1 ;;
  edge_pass weight bmask bad_flags st (-1) (-2).

End Interp.
Arguments edge_state F : clear implicits.
