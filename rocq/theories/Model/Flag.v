(** Model of pizza_cutter/slice_utils/flag.py. *)
From Coq Require Import ZArith List Bool.
From Verif Require Import Lib.Base Lib.Floats.
Import ListNotations.
Open Scope Z_scope.

Section Flag.
Context {F : Type} `{FloatOps F}.

(** flag.py:4-32 [slice_full_edge_masked]. The [or] is short-circuiting, so an
    index error in a later operand is only seen if the earlier ones are False. *)
Definition slice_full_edge_masked (weight : img F) (bmask : img Z) (bad_flags : Z)
  : result bool :=
  let wbad := forallb (fun w => fleb w fzero) in
  let bbad := forallb (fun b => negb (Z.land b bad_flags =? 0)) in
  let test {A} (get : result (list A)) (p : list A -> bool) (rest : result bool) :=
    (l <- get ;; if p l then Ok true else rest) in
  test (np_row weight 0) wbad        (* 25 *)
  (test (np_row weight (-1)) wbad    (* 26 *)
  (test (np_col weight 0) wbad       (* 27 *)
  (test (np_col weight (-1)) wbad    (* 28 *)
  (test (np_row bmask 0) bbad        (* 29 *)
  (test (np_row bmask (-1)) bbad     (* 30 *)
  (test (np_col bmask 0) bbad        (* 31 *)
  (test (np_col bmask (-1)) bbad     (* 32 *)
  (Ok false)))))))).

(** flag.py:35-50 [slice_has_flags]. *)
Definition slice_has_flags (bmask : img Z) (flags : Z) : bool :=
  np_any (imap (fun b => negb (Z.land b flags =? 0)) bmask).

(** flag.py:53-82 [compute_masked_fraction]. The mean of an empty array is NaN,
    here the quotient 0/0. *)
Definition compute_masked_fraction (weight : img F) (bmask : img Z) (bad_flags : Z)
  (ignore_mask : option (img bool)) : F :=
  let bad := imap2 (fun w b => fleb w fzero || negb (Z.land b bad_flags =? 0))
                   weight bmask in
  match ignore_mask with
  | Some ig =>
      (* 73-80 *)
      if np_all ig then fone
      else
        let keep_mask := imap negb ig in
        fdiv (fofZ (np_count (imap2 andb bad keep_mask))) (fofZ (np_count keep_mask))
  | None =>
      (* 82 *)
      fdiv (fofZ (np_count bad)) (fofZ (isize bad))
  end.

End Flag.
