(** Model of pizza_cutter/slice_utils/symmetrize.py.

    The functions work in place and return None; the model returns the final
    contents of the array. Integer arrays hold arbitrary integers (read as bit
    sets), so the wrap-around of bit 31 in a signed 32 bit array is not
    modelled. *)
From Coq Require Import ZArith List Bool.
From Verif Require Import Lib.Base Lib.Floats.
Import ListNotations.
Open Scope Z_scope.

Section Symmetrize.
Context {F : Type} `{FloatOps F}.

(** scipy.ndimage.rotate(image, angle, reshape=False, order=1,
    mode='constant', cval=1.0) (symmetrize.py:41-48 and 105-112): any function.
    [reshape=False] keeps the shape, so only pixels inside the shape of the
    input are read from the result. *)
Context (rotate : F -> img F -> img F).

(** symmetrize.py:5-51 [symmetrize_weight]. *)
Definition symmetrize_weight (weight : img F) (angle : option F)
  (no_sym_mask : option (img bool)) : result (img F) :=
  (* 22-23 *)
  if negb (nrows weight =? ncols weight) then Raise ValueError else
  (* 25-28 *)
  let mask := match no_sym_mask with
              | None => full (nrows weight) (ncols weight) true
              | Some m => imap negb m
              end in
  match angle with
  | None =>
      (* 30-35 *)
      let mask := rot90 mask in
      let weight_rot := rot90 weight in
      let msk := imap2 (fun w m => feqb w fzero && m) weight_rot mask in
      Ok (if np_any msk then where_set weight msk fzero else weight)
  | Some a =>
      (* 37-51 *)
      let msk := imap2 (fun w m => feqb w fzero && m) weight mask in
      Ok (if np_any msk then
            let rot_wgt := where_set (full (nrows weight) (ncols weight) fzero) msk fone in
            let rot_wgt := rotate a rot_wgt in
            let msk := mkimg (nrows weight) (ncols weight)
                             (fun r c => fltb fzero (px rot_wgt r c)) in
            if np_any msk then where_set weight msk fzero else weight
          else weight)
  end.

(** symmetrize.py:93-114, the body of the loop over bits, for bit number [i]. *)
Definition sym_bit (a : F) (no_sym_mask : option (img bool)) (sym_flags : option Z)
  (bmask : img Z) (i : Z) : img Z :=
  let bit := 2 ^ i in
  (* 95-96 *)
  if match sym_flags with
     | Some s => Z.land bit s =? 0
     | None => false
     end
  then bmask
  else
    (* 98-100 *)
    let msk := imap (fun b => negb (Z.land b bit =? 0)) bmask in
    let msk := match no_sym_mask with
               | Some m => imap2 (fun x y => x && negb y) msk m
               | None => msk
               end in
    (* 102-114 *)
    if np_any msk then
      let mask_for_bit := where_set (full (nrows bmask) (ncols bmask) fzero) msk fone in
      let mask_for_bit := rotate a mask_for_bit in
      mkimg (nrows bmask) (ncols bmask)
        (fun r c => if fltb fzero (px mask_for_bit r c)
                    then Z.lor (px bmask r c) bit else px bmask r c)
    else bmask.

(** symmetrize.py:54-114 [symmetrize_bmask]. In line 88 the right hand side is
    a view of the array being updated; numpy buffers overlapping operands, so
    the old values are read. *)
Definition symmetrize_bmask (bmask : img Z) (angle : option F)
  (no_sym_mask : option (img bool)) (sym_flags : option Z) : result (img Z) :=
  (* 73-74 *)
  if negb (nrows bmask =? ncols bmask) then Raise ValueError else
  match angle with
  | None =>
      (* 77-83 *)
      let bmask_keep := match no_sym_mask with
                        | Some m => where_set bmask m 0
                        | None => bmask
                        end in
      (* 85-88 *)
      Ok (match sym_flags with
          | Some s => imap2 Z.lor bmask (rot90 (imap (fun b => Z.land b s) bmask_keep))
          | None => imap2 Z.lor bmask (rot90 bmask_keep)
          end)
  | Some a =>
      (* 90-114 *)
      Ok (fold_left (sym_bit a no_sym_mask sym_flags) (zrange 0 32) bmask)
  end.

End Symmetrize.
