(** Model of the files behind the noise images: memmappednoise.py:24-82, as
    constructed by several workers at the same time.

    [MemMappedNoiseImage.__init__] is cut into the steps between which another
    process can do something. A file name leads to an inode; an open memory map
    keeps its inode when the name is removed (Linux). A file that is opened for
    the second time with mode w+ is emptied for everybody who has mapped it; that
    a mapping of a file which has become smaller cannot be read any more is left
    out. Directories and names are numbers. *)
From Coq Require Import ZArith List Bool Arith.
From Verif Require Import Lib.Base Lib.Floats Model.Noise.
Import ListNotations.
Open Scope Z_scope.

Section NoiseFiles.
Context {F : Type} {FO : FloatOps F}.
Variable normal : Z -> Z -> F.
Variable store : F -> F.

(** The arguments of the constructor, memmappednoise.py:24-26. *)
Record job := mkjob {
  j_seed : Z; j_weight : img F; j_fill_weight : option F; j_sx : Z; j_sy : Z; j_dir : option Z }.

(** What the worker number [p] constructs, the name that
    [tempfile.TemporaryDirectory()] chooses for it (47-49) and the one that
    [tempfile.mktemp] does (51). *)
Variable jobs : nat -> job.
Variable tmpdir_of : nat -> Z.
Variable name_of : nat -> Z.

(** Where a worker is in the constructor. *)
Inductive progress :=
| Start
| InDir (own : bool) (d : Z)
| Picked (own : bool) (path : Z * Z)
| Filling (own : bool) (path : Z * Z) (inode : nat) (todo : list (Z * Z)) (k : Z)
| Done (inode : nat)
| Failed (e : pyexc)
| Killed.

Record state := mkstate {
  dirs : Z -> bool;
  names : Z * Z -> option nat;
  data : nat -> img F;
  next : nat;
  workers : nat -> progress }.

Inductive event :=
| Begin (p : nat) | Pick (p : nat) | Open (p : nat) | Write (p : nat) | Finish (p : nat)
| RemoveDir (d : Z) | Kill (p : nat).

Definition set_worker (st : state) (p : nat) (w : progress) : state :=
  mkstate (dirs st) (names st) (data st) (next st)
    (fun q => if Nat.eqb q p then w else workers st q).

Definition same_path (a b : Z * Z) : bool := (fst a =? fst b) && (snd a =? snd b).

Definition make_dir (st : state) (d : Z) : state :=
  mkstate (fun e => if e =? d then true else dirs st e) (names st) (data st) (next st) (workers st).

(** The end of [tempfile.TemporaryDirectory]: a directory with all its files. *)
Definition remove_dir (st : state) (d : Z) : state :=
  mkstate (fun e => if e =? d then false else dirs st e)
    (fun path => if fst path =? d then None else names st path) (data st) (next st) (workers st).

Definition set_data (st : state) (i : nat) (im : img F) : state :=
  mkstate (dirs st) (names st) (fun j => if Nat.eqb j i then im else data st j) (next st) (workers st).

Definition new_file (st : state) (path : Z * Z) (im : img F) : state :=
  mkstate (dirs st) (fun q => if same_path q path then Some (next st) else names st q)
    (fun j => if Nat.eqb j (next st) then im else data st j) (S (next st)) (workers st).

(** The chunks in the order of the loops, memmappednoise.py:60-61. *)
Definition chunks (j : job) : list (Z * Z) :=
  flat_map (fun isx => map (fun isy => (isx, isy)) (zrange 0 (n_chunks (ncols (j_weight j)) (j_sy j))))
    (zrange 0 (n_chunks (nrows (j_weight j)) (j_sx j))).

(** One step of a worker, or the removal of a directory, or the end of a process by
    a signal. [None]: not possible in this state. *)
Definition step (st : state) (e : event) : option state :=
  match e with
  | Begin p => (* 28-49 *)
      match workers st p with
      | Start =>
          let j := jobs p in
          if (j_sx j =? 0) || (j_sy j =? 0) then Some (set_worker st p (Failed ZeroDivisionError))
          else
            match j_dir j with
            | Some d => Some (set_worker st p (InDir false d))
            | None =>
                if dirs st (tmpdir_of p) then None
                else Some (set_worker (make_dir st (tmpdir_of p)) p (InDir true (tmpdir_of p)))
            end
      | _ => None
      end
  | Pick p => (* 51: a name that does not exist *)
      match workers st p with
      | InDir own d =>
          match names st (d, name_of p) with
          | Some _ => None
          | None => Some (set_worker st p (Picked own (d, name_of p)))
          end
      | _ => None
      end
  | Open p => (* 53-58 *)
      match workers st p with
      | Picked own path =>
          let j := jobs p in
          if dirs st (fst path) then
            let zeros := full (nrows (j_weight j)) (ncols (j_weight j)) fzero in
            match names st path with
            | Some i => Some (set_worker (set_data st i zeros) p (Filling own path i (chunks j) 0))
            | None => Some (set_worker (new_file st path zeros) p (Filling own path (next st) (chunks j) 0))
            end
          else Some (set_worker st p (Failed IOError))
      | _ => None
      end
  | Write p => (* 62-75 *)
      match workers st p with
      | Filling own path i ((isx, isy) :: todo) k =>
          let j := jobs p in
          let '(im, k') := fill_chunk normal store (j_seed j) (j_weight j) (j_fill_weight j)
                             (j_sx j) (j_sy j) isx isy (data st i, k) in
          Some (set_worker (set_data st i im) p (Filling own path i todo k'))
      | _ => None
      end
  | Finish p => (* 76; the local variable [tmpdir] goes, and with it its directory *)
      match workers st p with
      | Filling own path i [] _ =>
          Some (set_worker (if own then remove_dir st (fst path) else st) p (Done i))
      | _ => None
      end
  | RemoveDir d => Some (remove_dir st d)
  | Kill p => Some (set_worker st p Killed)
  end.

Fixpoint exec (st : state) (l : list event) : option state :=
  match l with
  | [] => Some st
  | e :: l => match step st e with Some st => exec st l | None => None end
  end.

(** [__getitem__], memmappednoise.py:78-79: all pixels. *)
Definition noise_of (st : state) (p : nat) : option (img F) :=
  match workers st p with
  | Done i => Some (data st i)
  | _ => None
  end.

End NoiseFiles.
