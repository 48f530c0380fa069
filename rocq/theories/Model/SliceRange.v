(** Model of _pizza_cutter.py:_extract_slice_range. *)
From Coq Require Import ZArith List Bool String Ascii.
From Verif Require Import Lib.Base Lib.PyStr.
Import ListNotations.
Open Scope Z_scope.

(** A Python [range] object. *)
Record pyrange : Type := mk_range { rg_start : Z; rg_stop : Z; rg_step : Z }.

(** Number of elements of a range, as computed by Python. *)
Definition range_len (r : pyrange) : Z :=
  if 0 <? rg_step r
  then Z.max 0 ((rg_stop r - rg_start r + rg_step r - 1) / rg_step r)
  else Z.max 0 ((rg_start r - rg_stop r - rg_step r - 1) / (- rg_step r)).

(** [list(range)]. *)
Definition range_list (r : pyrange) : list Z :=
  map (fun k => rg_start r + k * rg_step r) (zrange 0 (range_len r)).

(** The values the argument [slice_range] can take. Lists, tuples and arrays
    have a length but no [split] and no [start]; all other values have
    neither [split] nor a length. *)
Inductive slice_arg : Type :=
| SNone
| SStr (s : string)
| SRange (r : pyrange)
| SSized (l : list Z)
| SOther.

(** sys.maxsize: [len(range)] raises OverflowError above it. *)
Definition maxsize : Z := 2 ^ 63 - 1.

(** _pizza_cutter.py:1055-1058 *)
Definition check_range (r : pyrange) (num : Z) : result pyrange :=
  if (rg_start r <? 0) || (num <? rg_stop r) then Raise ValueError else Ok r.

(** _pizza_cutter.py:1034-1060 *)
Definition extract_slice_range (arg : slice_arg) (num : Z) : result pyrange :=
  match arg with
  | SNone => Ok (mk_range 0 num 1)
  | SStr s =>
      match split_on ":"%char s with
      | [a; b] =>
          start <- py_int a ;;
          stop <- py_int b ;;
          check_range (mk_range start stop 1) num
      | _ => Raise AssertionError
      end
  | SRange r => if maxsize <? range_len r then Raise OverflowError else check_range r num
  | SSized _ => Raise AttributeError
  | SOther => Raise ValueError
  end.
