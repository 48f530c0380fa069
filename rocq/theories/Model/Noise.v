(** Model of pizza_cutter/memmappednoise.py and of the weight preparation of
    _se_image.py:_get_noise_image_impl. *)
From Coq Require Import ZArith List Bool.
From Verif Require Import Lib.Base Lib.Floats.
Import ListNotations.
Open Scope Z_scope.

Section Noise.
Context {F : Type} {FO : FloatOps F}.

(** The normal draws of [np.random.RandomState(seed)], in order: an arbitrary
    stream for each seed. *)
Variable normal : Z -> Z -> F.
(** Conversion to the float32 of the memory map: an arbitrary function. *)
Variable store : F -> F.

Definition fofb (b : bool) : F := if b then fofZ 1 else fofZ 0.

(** memmappednoise.py:69-73. *)
Definition zwgt (fill_weight : option F) (wgt : F) : F :=
  match fill_weight with
  | Some f => let z := fleb wgt fzero in
              fadd (fmul wgt (fofb (negb z))) (fmul f (fofb z))
  | None => wgt
  end.

(** memmappednoise.py:39-45: number of chunks in one direction. *)
Definition n_chunks (n s : Z) : Z :=
  let k := n / s in
  if k * s <? n then k + 1 else k.

(** State of the loops: the memory map and the number of draws used. *)
Definition noise_state : Type := (img F * Z)%type.

(** One chunk, memmappednoise.py:62-75. Assigning to [noise[xl:xu, yl:yu]]
    uses the draws in row-major order of the chunk. *)
Definition fill_chunk (seed : Z) (weight : img F) (fill_weight : option F) (sx sy isx isy : Z)
  (st : noise_state) : noise_state :=
  let '(noise, k) := st in
  let xl := isx * sx in
  let xu := Z.min (xl + sx) (nrows weight) in
  let yl := isy * sy in
  let yu := Z.min (yl + sy) (ncols weight) in
  (mkimg (nrows noise) (ncols noise)
     (fun r c =>
        if (xl <=? r) && (r <? xu) && (yl <=? c) && (c <? yu)
        then store (fmul (normal seed (k + (r - xl) * (yu - yl) + (c - yl)))
                         (fsqrt (fdiv fone (zwgt fill_weight (px weight r c)))))
        else px noise r c),
   k + (xu - xl) * (yu - yl)).

(** MemMappedNoiseImage.__init__, memmappednoise.py:24-76. The memory map
    starts as zeros. The file is modelled in NoiseFiles.v. *)
Definition noise_image (seed : Z) (weight : img F) (fill_weight : option F) (sx sy : Z)
  : result noise_state :=
  if (sx =? 0) || (sy =? 0) then Raise ZeroDivisionError
  else
    let nx := nrows weight in
    let ny := ncols weight in
    Ok (fold_left (fun st isx =>
          fold_left (fun st isy => fill_chunk seed weight fill_weight sx sy isx isy st)
            (zrange 0 (n_chunks ny sy)) st)
          (zrange 0 (n_chunks nx sx))
          (full nx ny fzero, 0)).

(** [np.max] of a 1d array; an empty one is a ValueError. *)
Definition np_max (l : list F) : result F :=
  match l with
  | [] => Raise ValueError
  | a :: l' => Ok (fold_left fmax l' a)
  end.

(** _get_noise_image_impl, _se_image.py:95-105. *)
Definition get_noise_image (wgt : img F) (scale : F) (noise_seed : Z) : result (img F) :=
  let zmsk := imap (fun w => fleb w fzero) wgt in
  max_wgt <- np_max (filter (fun w => negb (fleb w fzero)) (ravel wgt)) ;;
  let weight := imap2 (fun w z => fdiv (fadd (fmul w (fofb (negb z))) (fmul (fofb z) max_wgt))
                                       (fmul scale scale)) wgt zmsk in
  '(noise, _) <- noise_image noise_seed weight None 1024 1024 ;;
  Ok noise.

End Noise.
