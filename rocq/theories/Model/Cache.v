(** Model of [functools.lru_cache] as used by the readers of _se_image.py
    (46-364) and by [get_piff_psf] (_piff_tools.py): a bounded list of
    (key, value) pairs, most recently used first. The statistics
    ([cache_info]) are only used for messages and are not modelled. *)
From Coq Require Import ZArith List Bool.
From Verif Require Import Lib.Base.
Import ListNotations.

Section Cache.
Context {K V : Type}.
(** Equality of cache keys: Python's [hash] and [==] on the key tuples. *)
Variable eqb : K -> K -> bool.

Definition cache : Type := list (K * V).

Fixpoint find_key (k : K) (st : cache) : option (K * V) :=
  match st with
  | [] => None
  | (k', v) :: st => if eqb k k' then Some (k', v) else find_key k st
  end.

Fixpoint drop_key (k : K) (st : cache) : cache :=
  match st with
  | [] => []
  | (k', v) :: st => if eqb k k' then st else (k', v) :: drop_key k st
  end.

(** One call of a cached function [f]: a hit moves the entry to the front, a
    miss calls [f] and evicts the oldest entries beyond [maxsize]; exceptions
    are not cached. The key object kept after a hit is the stored one. *)
Definition cached_call (maxsize : nat) (f : K -> result V) (st : cache) (k : K)
  : result V * cache :=
  match find_key k st with
  | Some (k', v) => (Ok v, (k', v) :: drop_key k st)
  | None =>
      match f k with
      | Raise e => (Raise e, st)
      | Ok v => (Ok v, firstn maxsize ((k, v) :: st))
      end
  end.

(** In-place modification of the array object that a cache entry refers to. *)
Fixpoint modify_entry (k : K) (g : V -> V) (st : cache) : cache :=
  match st with
  | [] => []
  | (k', v) :: st => if eqb k k' then (k', g v) :: st else (k', v) :: modify_entry k g st
  end.

(** A history of calls and of [cache_clear] (clear_image_and_wcs_caches,
    373-385). *)
Inductive cache_op : Type :=
| Call (k : K)
| Clear.

Fixpoint run_cached (maxsize : nat) (f : K -> result V) (ops : list cache_op) (st : cache)
  : list (result V) * cache :=
  match ops with
  | [] => ([], st)
  | Clear :: ops => run_cached maxsize f ops []
  | Call k :: ops =>
      let '(r, st) := cached_call maxsize f st k in
      let '(rs, st) := run_cached maxsize f ops st in
      (r :: rs, st)
  end.

End Cache.
Arguments Call {K} k.
Arguments Clear {K}.
