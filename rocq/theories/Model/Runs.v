(** Model of several runs of make_des_pizza_slices at the same time, on one file system:
    _pizza_cutter.py:175-238 with files.py:80-144.

    What Model/Files.v computes in one go for one run is a sequence of steps here; between
    two of them another run can do something. A run that is killed is one that makes no
    further steps. [os.remove] with FileNotFoundError caught, and making a directory with
    errors ignored (files.py:45-53), are single steps; the [os.makedirs] of the temporary
    directory (files.py:101-102) is not: its error is not caught. fpack reads the
    uncompressed file that is there when it starts. Simplified: moving or removing a file
    that another run took away in the meantime is a step without effect here, and an
    exception in the code; no run meets this when the files are separate. *)
From Coq Require Import ZArith List Bool String.
From Verif Require Import Lib.Base Model.Files.
Import ListNotations.
Open Scope string_scope.

Section Runs.
Context {C : Type}.   (* contents of a file *)

(** What is left to do. *)
Inductive prog : Type :=
| Return (r : result unit)
| Do (o : op C) (k : prog)
| Read (p : path) (k : option C -> prog)      (* os.path.exists, or reading the file *)
| IsDir (d : string) (k : bool -> prog)       (* os.path.exists *)
| NewDir (d : string) (k : bool -> prog).     (* os.makedirs; false: FileExistsError *)

(** shutil.move. *)
Definition puts (q : path) (partial : list C) (k : prog) : prog :=
  fold_right (fun c k => Do (Put q c) k) k partial.

Definition move_prog (dev : device C) (p q : path) (k : prog) : prog :=
  match dev with
  | SameDevice => Do (Rename p q) k
  | OtherDevice partial =>
      Read p (fun c => match c with
                       | Some c => puts q partial (Do (Put q c) (Do (Remove p) k))
                       | None => Do (Remove p) k
                       end)
  end.

(** StagedOutFile.stage_out with must_exist=False, files.py:114-138. *)
Definition stage_prog (dev : device C) (st : staged_out) (k : prog) : prog :=
  if so_is_temp st && negb (so_was_staged_out st)
  then Read (so_path st) (fun t =>
         match t with
         | None => k
         | Some _ =>
             Read (so_final st) (fun f =>
               let rest := Do (Mkdir (fst (so_final st))) (move_prog dev (so_path st) (so_final st) k) in
               match f with Some _ => Do (Remove (so_final st)) rest | None => rest end)
         end)
  else k.

(** The arguments of a run, and what the external parts do, as in [world] of Model/Files.v;
    [j_pack] is what fpack makes of an uncompressed file. *)
Record job : Type := mkjob {
  j_fits : result C;
  j_partial_fits : option C;
  j_fpack_ok : bool;
  j_pack : C -> option C;
  j_valid : C -> bool;
  j_device : device C;
  j_meds : path;
  j_tmpdir : option string;
  j_remove_fits : bool
}.

(** StagedOutFile._set_paths, files.py:85-112. *)
Definition fz_of (p : path) : path := (fst p, snd p ++ ".fz").
Definition staging (j : job) : staged_out :=
  match j_tmpdir j with
  | None => mk_so false false (fz_of (j_meds j)) (fz_of (j_meds j)) false
  | Some d => mk_so false false (fz_of (j_meds j)) (d, snd (j_meds j) ++ ".fz")
                (negb (d =? fst (j_meds j)))
  end.

(** The context of the staged file, _pizza_cutter.py:184-234, and the validation. *)
Definition body (j : job) : prog :=
  let st := staging j in
  let fz := so_path st in
  let fits := (fst fz, snd (j_meds j)) in
  match j_fits j with
  | Raise e =>
      let k := stage_prog (j_device j) st (Return (Raise e)) in
      match j_partial_fits j with Some c => Do (Put fits c) k | None => k end
  | Ok c =>
      Do (Put fits c) (Do (Remove fz) (Read fits (fun x =>
        let valid := Read (so_final st) (fun d =>
              match d with
              | Some d => Return (if j_valid j d then Ok tt else Raise OtherError)
              | None => Return (Raise IOError)
              end) in
        let out := stage_prog (j_device j) st valid in
        let rm := if j_fpack_ok j && j_remove_fits j then Do (Remove fits) out else out in
        match x with
        | Some x => match j_pack j x with Some d => Do (Put fz d) rm | None => rm end
        | None => out   (* fpack fails *)
        end)))
  end.

(** _pizza_cutter.py:175 and files.py:101-102. FileExistsError is a subclass of OSError,
    of which IOError is another name. *)
Definition run_prog (j : job) : prog :=
  Do (Mkdir (fst (j_meds j)))
    match j_tmpdir j with
    | None => body j
    | Some d => IsDir d (fun b => if b then body j
                  else NewDir d (fun ok => if ok then body j else Return (Raise IOError)))
    end.

(** The file system and what is left of every run. *)
Record state : Type := mkstate { fs : fsys C; runs : nat -> prog }.

Definition set_run (st : state) (s : fsys C) (i : nat) (k : prog) : state :=
  mkstate s (fun q => if Nat.eqb q i then k else runs st q).

(** One step of run [i]; none when it has ended. *)
Definition step (st : state) (i : nat) : state :=
  match runs st i with
  | Return _ => st
  | Do o k => set_run st (apply (fs st) o) i k
  | Read p k => set_run st (fs st) i (k (file (fs st) p))
  | IsDir d k => set_run st (fs st) i (k (isdir (fs st) d))
  | NewDir d k => if isdir (fs st) d then set_run st (fs st) i (k false)
                  else set_run st (apply (fs st) (Mkdir d)) i (k true)
  end.

Definition exec (st : state) (schedule : list nat) : state := fold_left step schedule st.

(** All the runs at their beginning. *)
Definition start (s : fsys C) (jobs : list job) : state :=
  mkstate s (fun i => match nth_error jobs i with Some j => run_prog j | None => Return (Ok tt) end).

End Runs.
Arguments job C : clear implicits.
Arguments prog C : clear implicits.
Arguments state C : clear implicits.
