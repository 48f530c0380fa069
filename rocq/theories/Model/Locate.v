(** Model of pizza_cutter/slice_utils/locate.py. *)
From Coq Require Import ZArith List Bool.
From Verif Require Import Lib.Base Lib.Floats.
Import ListNotations.
Open Scope Z_scope.

Section Locate.
Context {F : Type} `{FloatOps F}.

(** pizza_cutter/slice_utils/locate.py:4-49 [build_slice_locations].
    Line 36 divides two Python ints, which rounds the exact quotient; it is
    rendered as the quotient of the converted operands, which is the same
    number for operands of magnitude up to 2^53. [int(nobj)] of a non-finite
    number (line 37) raises OverflowError. *)
Definition build_slice_locations (central_size buffer_size image_width : Z)
  : result (list F * list F * list F * list F) :=
  (* line 34 *)
  let cen_offset := fdiv (fofZ (central_size - 1)) (fofZ 2) in
  (* line 36 *)
  if central_size =? 0 then Raise ZeroDivisionError else
  let nobj := fdiv (fofZ (image_width - 2 * buffer_size)) (fofZ central_size) in
  match ftrunc nobj with
  | None => Raise OverflowError
  | Some n =>
      (* lines 37-39 *)
      if negb (feqb (fofZ n) nobj) then Raise ValueError else
      (* line 42: integer arithmetic, then one float addition *)
      let loc := map (fun k => fadd (fofZ (k * central_size + buffer_size)) cen_offset)
                     (zrange 0 n) in
      (* lines 43-45: meshgrid(loc, loc) and ravel *)
      let row := flat_map (fun l => map (fun _ => l) loc) loc in
      let col := flat_map (fun _ => loc) loc in
      (* lines 46-47 *)
      let start v := fsub (fsub v (fofZ buffer_size)) cen_offset in
      Ok (row, col, map start row, map start col)
  end.

End Locate.
