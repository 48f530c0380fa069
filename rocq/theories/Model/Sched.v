(** Model of the parallel run of _pizza_cutter.py:_coadd_and_write_images as a
    transition system: a pool of workers, the bounded result queue of the
    multiprocessing library, and the main process.

    The queue is modelled as the library implements it: a semaphore counts the
    results that have been put and not yet been read; each worker has a buffer
    from which a feeder thread moves results into the common pipe. *)
From Coq Require Import ZArith List Bool.
From Verif Require Import Lib.Base.
Import ListNotations.

Section Sched.
Variables item res outp : Type.
(** _coadd_single_slice *)
Variable work : item -> result res.
(** _process_results *)
Variable process : outp -> res -> result outp.

(** What a worker sends: a result, or the exception built from an error. *)
Inductive msg : Type :=
| MRes (r : res)
| MErr.

(** A worker of the pool. *)
Inductive wstate : Type :=
| Idle
| Busy (todo : list item)                (* inside the loop *)
| Putting (m : msg) (todo : list item).  (* blocked in, or before, put *)

Record worker : Type := mk_worker { w_state : wstate; w_buffer : list msg }.

(** The main process. *)
Inductive mstate : Type :=
| Getting (left : nat) (o : outp)   (* [left] more calls of get *)
| Raised (o : outp)
| Done (o : outp).

Record state : Type := mk_state {
  s_chunks : list (list item);   (* submitted, not yet taken by a worker *)
  s_workers : list worker;
  s_pipe : list msg;
  s_main : mstate
}.

Definition outstanding (s : state) : nat :=
  length (s_pipe s) + list_sum (map (fun w => length (w_buffer w)) (s_workers s)).

Definition idle_worker (w : worker) : bool :=
  match w_state w with Idle => true | _ => false end.

Definition upd_worker (s : state) (k : nat) (w : worker) : state :=
  mk_state (s_chunks s) (firstn k (s_workers s) ++ w :: skipn (S k) (s_workers s))
           (s_pipe s) (s_main s).

(** The main process has not stopped: after it has, the pool is terminated
    (the [with] block of _pizza_cutter.py:572-620). *)
Definition running (s : state) : bool :=
  match s_main s with Getting _ _ => true | _ => false end.

Inductive step (cap : nat) : state -> state -> Prop :=
(* the pool gives the next submitted chunk to an idle worker *)
| Take : forall s k b c cs,
    running s = true -> nth_error (s_workers s) k = Some (mk_worker Idle b) ->
    s_chunks s = c :: cs ->
    step cap s (mk_state cs (s_workers (upd_worker s k (mk_worker (Busy c) b))) (s_pipe s) (s_main s))
(* _pizza_cutter.py:422-434: the next slice of the chunk succeeds *)
| Compute : forall s k b i r todo,
    running s = true -> nth_error (s_workers s) k = Some (mk_worker (Busy (i :: todo)) b) ->
    work i = Ok r ->
    step cap s (upd_worker s k (mk_worker (Putting (MRes r) todo) b))
(* _pizza_cutter.py:436-443: or raises; the rest of the chunk is dropped *)
| Fail : forall s k b i e todo,
    running s = true -> nth_error (s_workers s) k = Some (mk_worker (Busy (i :: todo)) b) ->
    work i = Raise e ->
    step cap s (upd_worker s k (mk_worker (Putting MErr []) b))
(* RESULT_QUEUE.put(..., block=True) *)
| Put : forall s k b m todo,
    running s = true -> nth_error (s_workers s) k = Some (mk_worker (Putting m todo) b) ->
    (outstanding s < cap)%nat ->
    step cap s (upd_worker s k (mk_worker (Busy todo) (b ++ [m])))
(* the end of the chunk *)
| Finish : forall s k b,
    running s = true -> nth_error (s_workers s) k = Some (mk_worker (Busy []) b) ->
    step cap s (upd_worker s k (mk_worker Idle b))
(* the feeder thread of a worker *)
| Feed : forall s k st m b,
    running s = true -> nth_error (s_workers s) k = Some (mk_worker st (m :: b)) ->
    step cap s (mk_state (s_chunks s) (s_workers (upd_worker s k (mk_worker st b)))
                  (s_pipe s ++ [m]) (s_main s))
(* _pizza_cutter.py:608-618: a result arrives and is written *)
| GetOk : forall s n o r o' p,
    s_main s = Getting (S n) o -> s_pipe s = MRes r :: p -> process o r = Ok o' ->
    step cap s (mk_state (s_chunks s) (s_workers s) p (Getting n o'))
(* ... or cannot be written *)
| GetFail : forall s n o r e p,
    s_main s = Getting (S n) o -> s_pipe s = MRes r :: p -> process o r = Raise e ->
    step cap s (mk_state (s_chunks s) (s_workers s) p (Raised o))
(* _pizza_cutter.py:609-610 *)
| GetErr : forall s n o p,
    s_main s = Getting (S n) o -> s_pipe s = MErr :: p ->
    step cap s (mk_state (s_chunks s) (s_workers s) p (Raised o))
(* _pizza_cutter.py:620: all chunks have been completed *)
| Join : forall s o,
    s_main s = Getting 0 o -> s_chunks s = [] ->
    forallb idle_worker (s_workers s) = true ->
    step cap s (mk_state (s_chunks s) (s_workers s) (s_pipe s) (Done o)).

(** Start, _pizza_cutter.py:571-606: [n] is n_slices_to_do. *)
Definition start (n_jobs : nat) (chunks : list (list item)) (n : nat) (o : outp) : state :=
  mk_state chunks (repeat (mk_worker Idle []) n_jobs) [] (Getting n o).

Inductive steps (cap : nat) : state -> state -> Prop :=
| steps_refl : forall s, steps cap s s
| steps_step : forall s t u, steps cap s t -> step cap t u -> steps cap s u.

(** The serial run, _pizza_cutter.py:622-642. *)
Fixpoint serial (o : outp) (todo : list item) : result outp :=
  match todo with
  | [] => Ok o
  | i :: rest => r <- work i ;; o' <- process o r ;; serial o' rest
  end.

End Sched.
Arguments MErr {res}.
Arguments MRes {res} r.
Arguments Idle {item res}.
Arguments Busy {item res} todo.
Arguments Putting {item res} m todo.
Arguments mk_worker {item res} w_state w_buffer.
Arguments w_state {item res} w.
Arguments w_buffer {item res} w.
Arguments Getting {outp} left o.
Arguments Raised {outp} o.
Arguments Done {outp} o.
Arguments mk_state {item res outp} s_chunks s_workers s_pipe s_main.
Arguments s_chunks {item res outp} s.
Arguments s_workers {item res outp} s.
Arguments s_pipe {item res outp} s.
Arguments s_main {item res outp} s.
Arguments start {item res outp} n_jobs chunks n o.
