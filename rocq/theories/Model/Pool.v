(** Model of a run whose processes have caches: Model/Sched.v where every worker has a
    memory (Model/Process.v) that lives as long as the process does. *)
From Coq Require Import ZArith List Bool String.
From Coq Require Import List.
From Verif Require Import Lib.Base Lib.Floats Model.Cache Model.SeWcs Model.Epoch Model.Whole Model.Process Model.Sched.
Import ListNotations.
Open Scope list_scope.

Section Pool.
Variables item res outp mem : Type.
(** _coadd_single_slice in a process with a memory. *)
Variable work : item -> mem -> result res * mem.
(** _process_results *)
Variable process : outp -> res -> result outp.
(** What can be left of a memory when a process starts a chunk. The arguments of
    _process_slice_chunk are sent to the process again for every chunk (the pool
    pickles them), so entries whose keys hold an older copy of them are not found. *)
Variable forgets : mem -> mem -> Prop.

(** A worker of the pool with its memory. *)
Record pworker : Type := mk_pworker { pw_worker : worker item res; pw_mem : mem }.

Record pstate : Type := mk_pstate {
  ps_chunks : list (list item);
  ps_workers : list pworker;
  ps_pipe : list (msg res);
  ps_main : mstate outp
}.

Definition poutstanding (s : pstate) : nat :=
  length (ps_pipe s) + list_sum (map (fun w => length (w_buffer (pw_worker w))) (ps_workers s)).

Definition pidle (w : pworker) : bool :=
  match w_state (pw_worker w) with Idle => true | _ => false end.

Definition pupd (s : pstate) (k : nat) (w : pworker) : pstate :=
  mk_pstate (ps_chunks s) (firstn k (ps_workers s) ++ w :: skipn (S k) (ps_workers s)) (ps_pipe s) (ps_main s).

Definition prunning (s : pstate) : bool :=
  match ps_main s with Getting _ _ => true | _ => false end.

(** The steps are those of Model/Sched.v; [PCompute] and [PFail] use and change the
    memory of the worker (_pizza_cutter.py:417-443). *)
Inductive pstep (cap : nat) : pstate -> pstate -> Prop :=
| PTake : forall s k b c cs m m',
    prunning s = true -> nth_error (ps_workers s) k = Some (mk_pworker (mk_worker Idle b) m) ->
    ps_chunks s = c :: cs -> forgets m m' ->
    pstep cap s (mk_pstate cs (ps_workers (pupd s k (mk_pworker (mk_worker (Busy c) b) m'))) (ps_pipe s) (ps_main s))
| PCompute : forall s k b i r todo m m',
    prunning s = true -> nth_error (ps_workers s) k = Some (mk_pworker (mk_worker (Busy (i :: todo)) b) m) ->
    work i m = (Ok r, m') ->
    pstep cap s (pupd s k (mk_pworker (mk_worker (Putting (MRes r) todo) b) m'))
| PFail : forall s k b i e todo m m',
    prunning s = true -> nth_error (ps_workers s) k = Some (mk_pworker (mk_worker (Busy (i :: todo)) b) m) ->
    work i m = (Raise e, m') ->
    pstep cap s (pupd s k (mk_pworker (mk_worker (Putting MErr []) b) m'))
| PPut : forall s k b x todo m,
    prunning s = true -> nth_error (ps_workers s) k = Some (mk_pworker (mk_worker (Putting x todo) b) m) ->
    (poutstanding s < cap)%nat ->
    pstep cap s (pupd s k (mk_pworker (mk_worker (Busy todo) (b ++ [x])) m))
| PFinish : forall s k b m,
    prunning s = true -> nth_error (ps_workers s) k = Some (mk_pworker (mk_worker (Busy []) b) m) ->
    pstep cap s (pupd s k (mk_pworker (mk_worker Idle b) m))
| PFeed : forall s k st x b m,
    prunning s = true -> nth_error (ps_workers s) k = Some (mk_pworker (mk_worker st (x :: b)) m) ->
    pstep cap s (mk_pstate (ps_chunks s) (ps_workers (pupd s k (mk_pworker (mk_worker st b) m)))
                   (ps_pipe s ++ [x]) (ps_main s))
| PGetOk : forall s n o r o' p,
    ps_main s = Getting (S n) o -> ps_pipe s = MRes r :: p -> process o r = Ok o' ->
    pstep cap s (mk_pstate (ps_chunks s) (ps_workers s) p (Getting n o'))
| PGetFail : forall s n o r e p,
    ps_main s = Getting (S n) o -> ps_pipe s = MRes r :: p -> process o r = Raise e ->
    pstep cap s (mk_pstate (ps_chunks s) (ps_workers s) p (Raised o))
| PGetErr : forall s n o p,
    ps_main s = Getting (S n) o -> ps_pipe s = MErr :: p ->
    pstep cap s (mk_pstate (ps_chunks s) (ps_workers s) p (Raised o))
| PJoin : forall s o,
    ps_main s = Getting 0 o -> ps_chunks s = [] ->
    forallb pidle (ps_workers s) = true ->
    pstep cap s (mk_pstate (ps_chunks s) (ps_workers s) (ps_pipe s) (Done o)).

(** Start: the workers are forks of the main process, so they begin with its memory
    (_pizza_cutter.py:571-576). *)
Definition pstart (n_jobs : nat) (chunks : list (list item)) (n : nat) (o : outp) (m : mem) : pstate :=
  mk_pstate chunks (repeat (mk_pworker (mk_worker Idle []) m) n_jobs) [] (Getting n o).

Inductive psteps (cap : nat) : pstate -> pstate -> Prop :=
| psteps_refl : forall s, psteps cap s s
| psteps_step : forall s t u, psteps cap s t -> pstep cap t u -> psteps cap s u.

(** The serial run, _pizza_cutter.py:622-642. *)
Fixpoint pserial (o : outp) (todo : list item) (m : mem) : result outp :=
  match todo with
  | [] => Ok o
  | i :: rest => match work i m with
                 | (Raise e, _) => Raise e
                 | (Ok r, m) => o' <- process o r ;; pserial o' rest m
                 end
  end.
End Pool.
Arguments mk_pworker {item res mem} pw_worker pw_mem.
Arguments pw_worker {item res mem} p.
Arguments pw_mem {item res mem} p.
Arguments mk_pstate {item res outp mem} ps_chunks ps_workers ps_pipe ps_main.
Arguments ps_chunks {item res outp mem} p.
Arguments ps_workers {item res outp mem} p.
Arguments ps_pipe {item res outp mem} p.
Arguments ps_main {item res outp mem} p.
Arguments pstart {item res outp mem} n_jobs chunks n o m.

Section Caches.
Context {F : Type} {FO : FloatOps F} {P : Type}.

(** Entries can get lost, in any of the caches. *)
Record forgets_entries (st st' : caches F P) : Prop := {
  fg_shape : incl (c_shape st') (c_shape st);
  fg_image_wcs : incl (c_image_wcs st') (c_image_wcs st);
  fg_head_wcs : incl (c_head_wcs st') (c_head_wcs st);
  fg_piff : incl (c_piff st') (c_piff st);
  fg_psfex : incl (c_psfex st') (c_psfex st);
  fg_bounds : incl (c_bounds st') (c_bounds st);
  fg_pixels : incl (c_pixels st') (c_pixels st);
  fg_masks : incl (c_masks st') (c_masks st);
  fg_noise : incl (c_noise st') (c_noise st);
  fg_bad : incl (c_bad st') (c_bad st);
  fg_inverse : incl (c_inverse st') (c_inverse st);
  fg_area : incl (c_area st') (c_area st);
  fg_stars : incl (c_stars st') (c_stars st)
}.

(** The memory of the main process when the work on the slices starts: the table of
    images needs the WCS of the image files [names] (_noerr_load_image_wcs,
    _pizza_cutter.py:908-918, for _build_image_info). *)
Definition after_image_info (sz : sizes) (t : tile F P) (names : list hdu_name) : caches F P :=
  fold_left (fun st n => snd (load_image sz t n st)) names empty.
End Caches.
