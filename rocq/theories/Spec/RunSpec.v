(** What it means for a run to complete, and for two runs to have the same
    output. *)
From Coq Require Import ZArith Bool String List Permutation.
From Verif Require Import Lib.Base Lib.Floats Model.SliceRange Model.Jobs Model.Writer Model.Sched Spec.WriterSpec.
Import ListNotations.
Open Scope Z_scope.

(** The slices that are asked for. *)
Definition slices_of (arg : slice_arg) (num : Z) : result (list Z) :=
  rg <- extract_slice_range arg num ;; Ok (range_list rg).

(** Everything but ranges with a negative step. A range never has step 0. *)
Definition forward (arg : slice_arg) : Prop :=
  match arg with SRange r => 0 < rg_step r | _ => True end.

(** The arguments of a run that should not influence its output. *)
Record how : Type := mk_how {
  h_order : list Z -> list Z;   (* the order along the space-filling curve *)
  h_jobs : Z;
  h_chunks : option Z;
  h_cap : nat                   (* places in the result queue *)
}.

Definition valid_how (h : how) : Prop :=
  (forall k, Permutation k (h_order h k)) /\
  (1 < h_jobs h -> 1 <= match h_chunks h with None => h_jobs h | Some k => k end) /\
  (1 <= h_cap h)%nat.

Section RunSpec.
Variables res outp : Type.
Variable work : Z * Z -> result res.
Variable process : outp -> res -> result outp.

(** Under some schedule, with a result queue of [cap] places, the run of plan
    [p] from [o0] completes with output [o]. *)
Inductive completes (cap : nat) (o0 : outp) : plan -> outp -> Prop :=
| completes_serial : forall todo o,
    serial _ _ _ work process o0 todo = Ok o -> completes cap o0 (Serial todo) o
| completes_parallel : forall n_jobs n_todo chunks s o,
    steps _ _ _ work process cap
      (start (Z.to_nat n_jobs) chunks n_todo o0) s ->
    s_main s = Done o -> completes cap o0 (Parallel n_jobs n_todo chunks) o.

(** Under some schedule the run raises an exception. *)
Inductive raises (cap : nat) (o0 : outp) : plan -> Prop :=
| raises_serial : forall todo e,
    serial _ _ _ work process o0 todo = Raise e -> raises cap o0 (Serial todo)
| raises_parallel : forall n_jobs n_todo chunks s o,
    steps _ _ _ work process cap
      (start (Z.to_nat n_jobs) chunks n_todo o0) s ->
    s_main s = Raised o -> raises cap o0 (Parallel n_jobs n_todo chunks).

End RunSpec.

Section SameOutput.
Context {F : Type}.
Variables V E : Type.

(** The same extensions with the same sizes and the same pixels, the same
    object data, and the same epochs_info up to the order of the slices. *)
Definition same_output (a b : @out F V E) : Prop :=
  (forall ext, match o_fits V E a ext, o_fits V E b ext with
               | None, None => True
               | Some h, Some k => dim V h = dim V k /\ forall p, dat V h p = dat V k p
               | _, _ => False
               end) /\
  (forall j, o_obj V E a j = o_obj V E b j) /\
  Permutation (o_epochs V E a) (o_epochs V E b).

End SameOutput.

Section Runs.
Context {F : Type} {FO : FloatOps F}.
Variables V E : Type.
Variable zero : V.
Variable cast : string -> V -> V.
Variable isneg : V -> bool.
Variables box psf_box n_extra num nsrc seed : Z.
Variable obj0 : Z -> @obj F.
Variable rng : Type.
Variable init : Z -> rng.
Variable randint : rng -> Z -> Z -> Z * rng.

(** What is computed for a slice depends on the seeds of the single-epoch
    images and on the index and seed of the slice. It is labelled with the
    index and has the right shapes. *)
Variable work : list src_seeds -> Z * Z -> result (@results F V E).
Definition labelled : Prop := forall ss i s r, 0 <= i < num -> work ss (i, s) = Ok r ->
  r_i V E r = i /\ well_shaped V E box psf_box n_extra r.

(** The run for slices [arg], done in way [h], completes with output [o]. *)
Definition run_completes (arg : slice_arg) (h : how) (o : @out F V E) : Prop :=
  exists p ss,
    make_plan rng init randint (h_order h) arg num seed nsrc n_extra (h_jobs h) (h_chunks h) = Ok (p, ss) /\
    completes _ _ (work ss) (process_one V cast isneg E (box ^ 2) (psf_box ^ 2)) (h_cap h)
      (init_out V zero E num box psf_box n_extra obj0) p o.

Definition run_raises (arg : slice_arg) (h : how) : Prop :=
  exists p ss,
    make_plan rng init randint (h_order h) arg num seed nsrc n_extra (h_jobs h) (h_chunks h) = Ok (p, ss) /\
    raises _ _ (work ss) (process_one V cast isneg E (box ^ 2) (psf_box ^ 2)) (h_cap h)
      (init_out V zero E num box psf_box n_extra obj0) p.

End Runs.

(** The largest, comparing from left to right. *)
Definition running_max {F} `{FloatOps F} (l : list F) : F :=
  match l with [] => fzero | x :: l => fold_left fmax l x end.

Section Stored.
Context {F : Type} {FO : FloatOps F}.
Variables V E : Type.
Variable zero : V.
Variable cast : string -> V -> V.

(** The file and the object data hold the results [r] of one slice. *)
Definition stored (box psf_box : Z) (obj0 : Z -> @obj F) (o : @out F V E) (r : @results F V E) : Prop :=
  let npix ext := if String.eqb ext "psf" then (psf_box ^ 2)%Z else (box ^ 2)%Z in
  let i := r_i V E r in
  let b := o_obj V E o i in
  In (r_epochs V E r) (o_epochs V E o) /\
  (has_data V E r ->
     (forall ext info a, belongs V E r ext info a ->
        exists h, o_fits V E o ext = Some h /\
          forall y x, inb a y x -> dat V h (i * npix ext + y * ncols a + x) = cast info (px a y x)) /\
     o_ncutout b = 1 /\ o_nepoch b = Z.of_nat (length (r_weights V E r)) /\
     o_nepoch_eff b = fdiv (fsum (r_weights V E r)) (running_max (r_weights V E r)) /\
     o_psf_sigma b = r_psf_sigma V E r /\
     o_start_row b = i * box ^ 2 /\ o_psf_start_row b = i * psf_box ^ 2) /\
  (~ has_data V E r ->
     (forall ext h p, o_fits V E o ext = Some h -> in_region i (npix ext) p -> dat V h p = zero) /\
     o_nepoch b = 0 /\ o_nepoch_eff b = fzero /\ o_ncutout b = o_ncutout (obj0 i) /\
     o_psf_sigma b = o_psf_sigma (obj0 i) /\ o_start_row b = o_start_row (obj0 i) /\
     o_psf_start_row b = o_psf_start_row (obj0 i)).

End Stored.
