(** C23, C24: the memory mapped noise images. *)
From Coq Require Import ZArith List Bool Reals Lia Lra.
From Flocq Require Import Core.Raux Core.Zaux.
From Verif Require Import Lib.Base Lib.Floats Lib.Float32 Model.Noise Model.NoiseF4 Spec.NoiseSpec Spec.FloatSpec
  Spec.Float32Spec Proofs.BaseFacts Proofs.NoiseProofs Proofs.NoiseF64 Proofs.NoiseF32.
From Coq Require Import List.
Import ListNotations.
Open Scope Z_scope.

(** C23: every pixel holds the draw with its own number, times 1/sqrt(weight);
    exactly as many draws as pixels are used; in any arithmetic. *)
Theorem C23_every_pixel_has_its_own_draw :
  forall (F : Type) (FO : FloatOps F) (normal : Z -> Z -> F) (store : F -> F)
    (weight : img F) (fill_weight : option F) (sx sy : Z),
  1 <= sx -> 1 <= sy -> wf weight ->
  exists pos : Z -> Z -> Z, numbering (nrows weight) (ncols weight) pos /\
  forall seed, exists im,
    noise_image normal store seed weight fill_weight sx sy
      = Ok (im, nrows weight * ncols weight) /\
    nrows im = nrows weight /\ ncols im = ncols weight /\
    forall r c, inb weight r c ->
      px im r c = store (fmul (normal seed (pos r c))
                              (fsqrt (fdiv fone (zwgt fill_weight (px weight r c))))).
Proof.
  intros F FO normal store weight fw sx sy Hsx Hsy Hwf.
  exists (draw_pos (nrows weight) (ncols weight) sx sy). split.
  - destruct Hwf. apply draw_numbering; assumption.
  - intros seed. apply noise_image_spec; assumption.
Qed.

(** C23: the weight used is the weight of the pixel, or [fill_weight] where
    that weight is not positive. *)
Theorem C23_fill_weight :
  forall fw w : R, zwgt (Some fw) w = (if Rle_dec w 0 then fw else w) /\ zwgt None w = w.
Proof. intros fw w. split; [apply zwgt_R|reflexivity]. Qed.

(** C23, C24: the noise image of a single epoch image. [m] is the largest
    weight; the noise of a pixel has standard deviation scale/sqrt(weight). *)
Theorem C23_epoch_noise :
  forall (normal : Z -> Z -> R) (store : R -> R) (wgt : img R) (scale : R) (seed : Z),
  wf wgt -> (scale > 0)%R ->
  ((forall r c, inb wgt r c -> (px wgt r c <= 0)%R) ->
   get_noise_image normal store wgt scale seed = Raise ValueError) /\
  (forall r0 c0, inb wgt r0 c0 -> (px wgt r0 c0 > 0)%R ->
   exists im m pos,
   get_noise_image normal store wgt scale seed = Ok im /\
   nrows im = nrows wgt /\ ncols im = ncols wgt /\
   (exists r c, inb wgt r c /\ px wgt r c = m) /\ (0 < m)%R /\
   (forall r c, inb wgt r c -> (px wgt r c <= m)%R) /\
   numbering (nrows wgt) (ncols wgt) pos /\
   forall r c, inb wgt r c ->
     px im r c = store (normal seed (pos r c)
                        * (scale / sqrt (if Rle_dec (px wgt r c) 0 then m else px wgt r c)))%R).
Proof.
  intros normal store wgt scale seed Hwf Hs.
  destruct (get_noise_image_spec normal store wgt scale seed Hwf Hs) as [H1 H2].
  split; [exact H1|]. intros r0 c0 Hb Hp. destruct (H2 r0 c0 Hb Hp) as (im & m & E & A & B & C & D & G & K).
  exists im, m, (draw_pos (nrows wgt) (ncols wgt) 1024 1024).
  repeat (split; [assumption|]). split; [|assumption].
  destruct Hwf. apply draw_numbering; lia.
Qed.

(** C23: a chunk size of zero is refused, whatever the other one is. *)
Theorem C23_zero_chunk_size :
  forall (F : Type) (FO : FloatOps F) (normal : Z -> Z -> F) (store : F -> F)
    (weight : img F) (fill_weight : option F) (sx sy seed : Z),
  sx = 0 \/ sy = 0 ->
  noise_image normal store seed weight fill_weight sx sy = Raise ZeroDivisionError.
Proof.
  intros F FO normal store weight fw sx sy seed H. unfold noise_image.
  destruct H as [-> | ->]; rewrite Z.eqb_refl, ?orb_true_r; reflexivity.
Qed.

(** C23: the same noise image computed on doubles and stored as single precision numbers.
    The weights have the values [wv], the draws the values [nv] and the scale the value [s].
    Each pixel is a single precision number, and is the draw times the standard deviation up to
    the rounding of a single precision number. *)
Theorem C23_epoch_noise_double :
  forall (normal : Z -> Z -> f64) (wgt : img f64) (scale : f64) (seed : Z)
    (nv : Z -> R) (wv : Z -> Z -> R) (s : R),
  wf wgt ->
  (forall r c, inb wgt r c -> f64_is (px wgt r c) (wv r c) /\
     (- bpow radix2 100 <= wv r c <= 0 \/ bpow radix2 (-100) <= wv r c <= bpow radix2 100)%R) ->
  f64_is scale s -> (bpow radix2 (-40) <= s <= bpow radix2 40)%R ->
  (forall k, 0 <= k < nrows wgt * ncols wgt ->
     f64_is (normal seed k) (nv k) /\ (Rabs (nv k) <= bpow radix2 10)%R) ->
  ((forall r c, inb wgt r c -> (wv r c <= 0)%R) ->
   get_noise_image normal to_single wgt scale seed = Raise ValueError) /\
  (forall r0 c0, inb wgt r0 c0 -> (wv r0 c0 > 0)%R ->
   exists im m pos,
   get_noise_image normal to_single wgt scale seed = Ok im /\
   nrows im = nrows wgt /\ ncols im = ncols wgt /\
   (exists r c, inb wgt r c /\ wv r c = m) /\
   (forall r c, inb wgt r c -> (wv r c <= m)%R) /\
   numbering (nrows wgt) (ncols wgt) pos /\
   forall r c, inb wgt r c ->
     let t := (nv (pos r c) * (s / sqrt (if Rle_dec (wv r c) 0 then m else wv r c)))%R in
     exists v, f64_is (px im r c) v /\ single v /\
       (Rabs (v - t) <= bpow radix2 (-23) * Rabs t + bpow radix2 (-149))%R).
Proof.
  intros normal wgt scale seed nv wv s Hwf Hw Hs Rs Hn.
  destruct (epoch_noise_double normal wgt scale seed nv wv s Hwf Hw Hs Rs Hn) as [H1 H2].
  split; [exact H1|]. intros r0 c0 Hb Hp. destruct (H2 r0 c0 Hb Hp) as (im & m & E & A & B & C & D & K).
  exists im, m, (draw_pos (nrows wgt) (ncols wgt) 1024 1024).
  repeat (split; [assumption|]). split; [|assumption].
  destruct Hwf. apply draw_numbering; lia.
Qed.

(** C23: the same for weights of dtype 'f4', where the quotients and the square root are
    single precision numbers too: four roundings instead of one. *)
Theorem C23_epoch_noise_single :
  forall (normal : Z -> Z -> f64) (wgt : img f64) (scale : f64) (seed : Z)
    (nv : Z -> R) (wv : Z -> Z -> R) (s : R),
  wf wgt ->
  (forall r c, inb wgt r c -> f64_is (px wgt r c) (wv r c) /\ single (wv r c) /\
     (- bpow radix2 40 <= wv r c <= 0 \/ bpow radix2 (-40) <= wv r c <= bpow radix2 40)%R) ->
  f64_is scale s -> (bpow radix2 (-20) <= s <= bpow radix2 20)%R ->
  (forall k, 0 <= k < nrows wgt * ncols wgt ->
     f64_is (normal seed k) (nv k) /\ (Rabs (nv k) <= bpow radix2 10)%R) ->
  ((forall r c, inb wgt r c -> (wv r c <= 0)%R) ->
   get_noise_image_f4 normal wgt scale seed = Raise ValueError) /\
  (forall r0 c0, inb wgt r0 c0 -> (wv r0 c0 > 0)%R ->
   exists im m pos,
   get_noise_image_f4 normal wgt scale seed = Ok im /\
   nrows im = nrows wgt /\ ncols im = ncols wgt /\
   (exists r c, inb wgt r c /\ wv r c = m) /\
   (forall r c, inb wgt r c -> (wv r c <= m)%R) /\
   numbering (nrows wgt) (ncols wgt) pos /\
   forall r c, inb wgt r c ->
     let t := (nv (pos r c) * (s / sqrt (if Rle_dec (wv r c) 0 then m else wv r c)))%R in
     exists v, f64_is (px im r c) v /\ single v /\
       (Rabs (v - t) <= bpow radix2 (-21) * Rabs t + bpow radix2 (-149))%R).
Proof.
  intros normal wgt scale seed nv wv s Hwf Hw Hs Rs Hn.
  destruct (epoch_noise_single normal wgt scale seed nv wv s Hwf Hw Hs Rs Hn) as [H1 H2].
  split; [exact H1|]. intros r0 c0 Hb Hp. destruct (H2 r0 c0 Hb Hp) as (im & m & E & A & B & C & D & K).
  exists im, m, (draw_pos (nrows wgt) (ncols wgt) 1024 1024).
  repeat (split; [assumption|]). split; [|assumption].
  destruct Hwf. apply draw_numbering; lia.
Qed.

(** C24: only the first nx*ny draws and the weights inside of the image
    matter: two runs that agree on these give the same image. *)
Theorem C24_reproducible :
  forall (F : Type) (FO : FloatOps F) (normal normal' : Z -> Z -> F) (store : F -> F)
    (weight weight' : img F) (fw : option F) (sx sy seed seed' : Z) (im im' : img F) (k k' : Z),
  1 <= sx -> 1 <= sy -> wf weight -> img_eq weight weight' ->
  (forall i, 0 <= i < nrows weight * ncols weight -> normal seed i = normal' seed' i) ->
  noise_image normal store seed weight fw sx sy = Ok (im, k) ->
  noise_image normal' store seed' weight' fw sx sy = Ok (im', k') ->
  img_eq im im' /\ k = k'.
Proof.
  intros F FO normal normal' store weight weight' fw sx sy seed seed' im im' k k' Hsx Hsy Hwf
    (E1 & E2 & E3) Hn H H'.
  destruct (noise_image_spec normal store seed weight fw sx sy Hsx Hsy Hwf) as (i1 & A1 & A2 & A3 & A4).
  assert (Hwf' : wf weight') by (unfold wf in *; lia).
  destruct (noise_image_spec normal' store seed' weight' fw sx sy Hsx Hsy Hwf') as (i2 & B1 & B2 & B3 & B4).
  rewrite H in A1. rewrite H' in B1. inversion A1; inversion B1; subst i1 i2 k k'. clear A1 B1.
  split; [|congruence]. split; [congruence|]. split; [congruence|].
  intros r c [Hr Hc]. rewrite A2 in Hr. rewrite A3 in Hc.
  rewrite A4 by (split; assumption). rewrite B4 by (unfold inb; lia).
  unfold noise_px. rewrite <- E1, <- E2, <- E3 by (split; assumption).
  rewrite Hn; [reflexivity|]. apply draw_range; assumption.
Qed.

(** C24: while one chunk spans the width of the image, the chunk sizes have no
    influence at all: pixel (r, c) gets draw number r*ny + c. *)
Theorem C24_chunk_size_irrelevant_for_full_width_chunks :
  forall (F : Type) (FO : FloatOps F) (normal : Z -> Z -> F) (store : F -> F)
    (weight : img F) (fw : option F) (sx sy seed : Z) (im : img F) (k : Z),
  1 <= sx -> 1 <= sy -> wf weight -> ncols weight <= sy ->
  noise_image normal store seed weight fw sx sy = Ok (im, k) ->
  forall r c, inb weight r c ->
    px im r c = store (fmul (normal seed (r * ncols weight + c))
                            (fsqrt (fdiv fone (zwgt fw (px weight r c))))).
Proof.
  intros F FO normal store weight fw sx sy seed im k Hsx Hsy Hwf Hw H r c Hb.
  destruct (noise_image_spec normal store seed weight fw sx sy Hsx Hsy Hwf) as (i1 & A1 & A2 & A3 & A4).
  rewrite H in A1. inversion A1; subst i1. rewrite A4 by assumption. unfold noise_px.
  destruct Hb. rewrite draw_row_major by assumption. reflexivity.
Qed.

(** C24: narrower chunks do change the image. *)
Theorem C24_narrow_chunks_change_the_image :
  exists (normal : Z -> Z -> f64) (weight im im' : img f64) (k k' : Z),
  noise_image normal (fun x => x) 0 weight None 2 2 = Ok (im, k) /\
  noise_image normal (fun x => x) 0 weight None 2 1 = Ok (im', k') /\
  feqb (px im 0 1) (px im' 0 1) = false.
Proof.
  set (nr := fun _ i : Z => f64_ofZ i : f64). set (w := full 2 2 (f64_ofZ 1)).
  destruct (noise_image nr (fun x => x) 0 w None 2 2) as [[im k]|] eqn:E; [|discriminate].
  destruct (noise_image nr (fun x => x) 0 w None 2 1) as [[im' k']|] eqn:E'; [|discriminate].
  exists nr, w, im, im', k, k'. split; [exact E|]. split; [exact E'|].
  assert (K : px im 0 1 = f64_ofZ 1).
  { apply (f_equal (fun x => match x with Ok (i, _) => px i 0 1 | _ => f64_ofZ 0 end)) in E.
    rewrite <- E. vm_compute. reflexivity. }
  assert (K' : px im' 0 1 = f64_ofZ 2).
  { apply (f_equal (fun x => match x with Ok (i, _) => px i 0 1 | _ => f64_ofZ 0 end)) in E'.
    rewrite <- E'. vm_compute. reflexivity. }
  rewrite K, K'. reflexivity.
Qed.

(** Concrete: a 3 x 5 image in chunks of 2 x 2, which do not divide it. *)
Example C23_example :
  map (fun p => draw_pos 3 5 2 2 (fst p) (snd p)) (allpix 3 5)
  = [0; 1; 4; 5; 8; 2; 3; 6; 7; 9; 10; 11; 12; 13; 14].
Proof. reflexivity. Qed.

(** Concrete: weights 3, 0, -1 and 1, scale 2 and the draws -1, 0, 1 and 2. The pixel of
    weight -1 takes the weight 3, so that its noise is 2/sqrt 3, here as a single. *)
Definition example_wgt : img f64 :=
  mkimg 2 2 (fun r c => f64_ofZ (if r =? 0 then 3 - 3 * c else 2 * c - 1)).

Example C23_example_double :
  match get_noise_image (fun _ k => f64_ofZ (k - 1)) to_single example_wgt (f64_ofZ 2) 0 with
  | Ok im => map (fun x => f64_trunc (fmul x (f64_ofZ (2 ^ 23)))) (ravel im)
  | Raise _ => []
  end = [Some (-9686330); Some 0; Some 9686330; Some (4 * 2 ^ 23)] /\
  forall k, 0 <= k < nrows example_wgt * ncols example_wgt ->
    f64_is (f64_ofZ (k - 1)) (IZR (k - 1)) /\ (Rabs (IZR (k - 1)) <= bpow radix2 10)%R.
Proof.
  split; [vm_compute; reflexivity|]. cbn [example_wgt nrows ncols]. intros k Hk. split.
  - apply F64Facts.f64_ofZ_is. lia.
  - rewrite <- abs_IZR. change (bpow radix2 10) with (IZR 1024). apply IZR_le. lia.
Qed.

(** The same with single precision weights and the scale 1.3, whose square is not a single
    precision number; then with double precision weights: the last pixel differs. *)
Example C23_example_single :
  match get_noise_image_f4 (fun _ k => f64_ofZ (k - 1)) example_wgt (fdiv (f64_ofZ 13) (f64_ofZ 10)) 0,
        get_noise_image (fun _ k => f64_ofZ (k - 1)) to_single example_wgt (fdiv (f64_ofZ 13) (f64_ofZ 10)) 0
  with
  | Ok im, Ok im' => map (fun x => f64_trunc (fmul x (f64_ofZ (2 ^ 24)))) (ravel im ++ ravel im')
  | _, _ => []
  end = [Some (-12592229); Some 0; Some 12592229; Some 43620764;
         Some (-12592229); Some 0; Some 12592229; Some 43620760] /\
  forall r c, inb example_wgt r c ->
    exists z, px example_wgt r c = f64_ofZ z /\ -1 <= z <= 3.
Proof.
  split; [vm_compute; reflexivity|]. intros r c [Hr Hc]. cbn in Hr, Hc. cbn [px example_wgt].
  destruct (r =? 0); eexists; (split; [reflexivity|lia]).
Qed.

Print Assumptions C23_every_pixel_has_its_own_draw.
Print Assumptions C23_fill_weight.
Print Assumptions C23_epoch_noise.
Print Assumptions C23_zero_chunk_size.
Print Assumptions C23_epoch_noise_double.
Print Assumptions C23_epoch_noise_single.
Print Assumptions C24_reproducible.
Print Assumptions C24_chunk_size_irrelevant_for_full_width_chunks.
Print Assumptions C24_narrow_chunks_change_the_image.
