(** Model of the planning part of _pizza_cutter.py:_coadd_and_write_images:
    which slices are done, in which chunks, and with which seeds. *)
From Coq Require Import ZArith List Bool.
From Verif Require Import Lib.Base Model.SliceRange.
Import ListNotations.
Open Scope Z_scope.

Section Jobs.

(** numpy's RandomState: any deterministic generator. [randint g low high]
    is one draw. *)
Variable rng : Type.
Variable init : Z -> rng.
Variable randint : rng -> Z -> Z -> Z * rng.

(** [g.randint(low, high, size=n)] *)
Fixpoint randints (n : nat) (g : rng) (low high : Z) : list Z * rng :=
  match n with
  | O => ([], g)
  | S m => let '(x, g1) := randint g low high in
           let '(xs, g2) := randints m g1 low high in
           (x :: xs, g2)
  end.

(** The two kinds of seeds given to each single-epoch image,
    _pizza_cutter.py:554-557. *)
Definition src_seeds : Type := (list Z * Z)%type.

Fixpoint draw_src_seeds (nsrc : nat) (n_extra : Z) (g : rng) : list src_seeds * rng :=
  match nsrc with
  | O => ([], g)
  | S m =>
      let '(ns, g1) := randints (Z.to_nat (n_extra + 1)) g 1 (2 ^ 30) in
      let '(ms, g2) := randint g1 1 (2 ^ 30) in
      let '(rest, g3) := draw_src_seeds m n_extra g2 in
      ((ns, ms) :: rest, g3)
  end.

(** _pizza_cutter.py:549-557: [num] is len(object_data). *)
Definition all_seeds (seed num nsrc n_extra : Z) : list Z * list src_seeds :=
  let '(slice_seeds, g) := randints (Z.to_nat num) (init seed) 1 (2 ^ 32 - 1) in
  let '(ss, _) := draw_src_seeds (Z.to_nat nsrc) n_extra g in
  (slice_seeds, ss).

(** _pizza_cutter.py:567-569 *)
Definition chunk_size (n n_chunks : Z) : result Z :=
  if n_chunks =? 0 then Raise ZeroDivisionError
  else
    let nsub := n / n_chunks in
    Ok (if nsub * n_chunks <? n then nsub + 1 else nsub).

(** One chunk: jobs[w] and worker_seeds[w], _pizza_cutter.py:581-585. *)
Definition one_job (slices seeds : list Z) (nsub w : Z) : result (list Z * list Z) :=
  fold_left (fun acc s =>
    ' (job, sds) <- acc ;;
    let loc := w * nsub + s in
    if loc <? Z.of_nat (length slices)
    then i <- pynth slices loc ;;
         let job := job ++ [i] in
         last <- pynth job (-1) ;;
         sd <- pynth seeds last ;;
         Ok (job, sds ++ [sd])
    else Ok (job, sds)) (zrange 0 nsub) (Ok ([], [])).

(** All chunks, _pizza_cutter.py:577-585, as the worker sees them: a list of
    (slice, seed) pairs, from the [zip] at _pizza_cutter.py:422. *)
Definition make_jobs (slices seeds : list Z) (n_chunks : Z) : result (list (list (Z * Z))) :=
  nsub <- chunk_size (Z.of_nat (length slices)) n_chunks ;;
  fold_left (fun acc w =>
    js <- acc ;;
    ' (job, sds) <- one_job slices seeds nsub w ;;
    Ok (js ++ [combine job sds])) (zrange 0 n_chunks) (Ok []).

(** The work of a run. [n_todo] is n_slices_to_do, the number of results that
    the main process of a parallel run waits for. *)
Inductive plan : Type :=
| Serial (todo : list (Z * Z))
| Parallel (n_jobs : Z) (n_todo : nat) (chunks : list (list (Z * Z))).

Definition plan_items (p : plan) : list (Z * Z) :=
  match p with
  | Serial todo => todo
  | Parallel _ _ chunks => concat chunks
  end.

(** Looking up the seeds of the serial loop, _pizza_cutter.py:622-634. *)
Fixpoint serial_items (slices seeds : list Z) : result (list (Z * Z)) :=
  match slices with
  | [] => Ok []
  | i :: rest => s <- pynth seeds i ;; r <- serial_items rest seeds ;; Ok ((i, s) :: r)
  end.

(** _pizza_cutter.py:514-642 without the processing itself. [order] is the
    reordering along the space-filling curve (lines 524-536): it looks at
    object_data[i] for each slice, so that an index out of range raises, and
    it permutes the slices. *)
Definition make_plan (order : list Z -> list Z) (arg : slice_arg) (num seed nsrc n_extra n_jobs : Z)
  (n_chunks : option Z) : result (plan * list src_seeds) :=
  let nc := match n_chunks with None => n_jobs | Some k => k end in
  rg <- extract_slice_range arg num ;;
  let slices := range_list rg in
  if forallb (fun i => match pyindex num i with Some _ => true | None => false end) slices
  then
    let slices := order slices in
    let '(slice_seeds, ss) := all_seeds seed num nsrc n_extra in
    if 1 <? n_jobs
    then chunks <- make_jobs slices slice_seeds nc ;; Ok (Parallel n_jobs (length slices) chunks, ss)
    else todo <- serial_items slices slice_seeds ;; Ok (Serial todo, ss)
  else Raise IndexError.

End Jobs.
