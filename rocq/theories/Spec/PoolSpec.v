(** What it means for a run to complete or to raise an exception when its processes
    have memories. *)
From Coq Require Import ZArith Bool String List.
From Verif Require Import Lib.Base Lib.Floats Model.SliceRange Model.Jobs Model.Writer Model.Sched Model.Pool
  Spec.WriterSpec Spec.RunSpec.
Import ListNotations.
Open Scope Z_scope.

Section Steps.
Variables item res outp mem : Type.
Variable work : item -> mem -> result res * mem.
Variable process : outp -> res -> result outp.
Variable forgets : mem -> mem -> Prop.

(** A sequence of [n] steps of a pool of processes with memories. *)
Inductive pnsteps (cap : nat) : nat -> pstate item res outp mem -> pstate item res outp mem -> Prop :=
| pnsteps_0 : forall s, pnsteps cap 0 s s
| pnsteps_S : forall n s t u, pnsteps cap n s t -> pstep _ _ _ _ work process forgets cap t u -> pnsteps cap (S n) s u.
End Steps.

Section Memory.
Context {F : Type} {FO : FloatOps F}.
Variables V E : Type.
Variable zero : V.
Variable cast : string -> V -> V.
Variable isneg : V -> bool.
Variables box psf_box n_extra num nsrc seed : Z.
Variable obj0 : Z -> @obj F.
Variable rng : Type.
Variable init : Z -> rng.
Variable randint : rng -> Z -> Z -> Z * rng.
Variable mem : Type.
Variable work : list src_seeds -> Z * Z -> mem -> result (@results F V E) * mem.
Variable forgets : mem -> mem -> Prop.
Variable m0 : mem.
Notation process := (process_one V cast isneg E (box ^ 2) (psf_box ^ 2)).
Notation o0 := (init_out V zero E num box psf_box n_extra obj0).

(** The run for slices [arg], done in way [h] (see [run_completes]), completes with
    output [o] under some schedule. *)
Definition run_with_memory_completes (arg : slice_arg) (h : how) (o : @out F V E) : Prop :=
  exists p ss,
    make_plan rng init randint (h_order h) arg num seed nsrc n_extra (h_jobs h) (h_chunks h) = Ok (p, ss) /\
    match p with
    | Serial todo => pserial _ _ _ _ (work ss) process o0 todo m0 = Ok o
    | Parallel n_jobs n_todo chunks =>
        exists s, psteps _ _ _ _ (work ss) process forgets (h_cap h)
                    (pstart (Z.to_nat n_jobs) chunks n_todo o0 m0) s /\
                  ps_main s = Done o
    end.

(** Under some schedule it raises an exception. *)
Definition run_with_memory_raises (arg : slice_arg) (h : how) : Prop :=
  exists p ss,
    make_plan rng init randint (h_order h) arg num seed nsrc n_extra (h_jobs h) (h_chunks h) = Ok (p, ss) /\
    match p with
    | Serial todo => exists e, pserial _ _ _ _ (work ss) process o0 todo m0 = Raise e
    | Parallel n_jobs n_todo chunks =>
        exists s o, psteps _ _ _ _ (work ss) process forgets (h_cap h)
                      (pstart (Z.to_nat n_jobs) chunks n_todo o0 m0) s /\
                    ps_main s = Raised o
    end.
End Memory.
