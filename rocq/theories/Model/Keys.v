(** Model of the texts and hashes by which WCS and image objects are found in
    caches: _affine_wcs.py:58-77, wcs.py:44-63, _se_image.py:616-650, and of
    [functools.lru_cache] with such objects as arguments. *)
From Coq Require Import ZArith List Bool String.
From Coq Require Import List.
From Verif Require Import Lib.Base Lib.Floats Lib.PyDict Model.Affine Model.SeWcs Model.Process.
Import ListNotations.
Open Scope string_scope.
Open Scope Z_scope.

Section Texts.
Context {F : Type}.
(** ["%s"] of a number, and [hash] of a text; the latter differs between runs of
    Python. *)
Variables (show : F -> string) (hash_text : string -> Z).

(** AffineWCS.__repr__ and __str__, _affine_wcs.py:58-69. *)
Definition affine_text (w : affine F) : string :=
  "AffineWCS(dudx=" ++ show (dudx w) ++ ", dudy=" ++ show (dudy w) ++ ", dvdx=" ++ show (dvdx w) ++
  ", dvdy=" ++ show (dvdy w) ++ ", x0=" ++ show (x0 w) ++ ", y0=" ++ show (y0 w) ++ ")".

(** AffineWCS.__hash__ and __eq__, 73-77. *)
Definition affine_hash (w : affine F) : Z := hash_text (affine_text w).
Definition affine_eq (w w' : affine F) : bool := affine_hash w =? affine_hash w'.
End Texts.

(** An object whose text is kept once it has been made: FastHashingWCS
    (wcs.py:49-57, where the constructor makes it) and SEImageSlice
    (_se_image.py:616-632, where the first use does). [None]: not made yet. *)
Record keeping (S : Type) : Type := mkkeeping { k_now : S; k_text : option string }.
Arguments mkkeeping {S}.
Arguments k_now {S}.
Arguments k_text {S}.

(** __repr__: the text and the object after it. [print] makes the text of what the
    object holds now. *)
Definition kept_text {S} (print : S -> string) (o : keeping S) : string * keeping S :=
  match k_text o with
  | Some s => (s, o)
  | None => (print (k_now o), mkkeeping (k_now o) (Some (print (k_now o))))
  end.

(** The text of an AffineWCS is made anew each time. *)
Definition fresh_text {S} (print : S -> string) (o : S) : string * S := (print o, o).

(** ** The text of an image object, _se_image.py:616-632 *)
Section Image.
Context {F P : Type}.
(** A value in the dictionary that is printed: the value of a key of source_info,
    or the dictionary of the texts of the attributes. *)
Inductive entry (V : Type) : Type :=
| Given (v : V)
| Internals (texts : dict string).
Arguments Given {V}.
Arguments Internals {V}.

Context {V : Type}.
(** source_info as a dictionary; [repr] of the attributes; pprint.pformat. *)
Variables (source_dict : image F P -> dict V)
  (show_psf : P -> string) (show_wcs : wcs F -> string) (show : F -> string)
  (show_seeds : list Z -> string) (pformat : dict (entry V) -> string).

Definition image_state (id : identity F P) : dict (entry V) :=
  dset (map (fun kv => (fst kv, Given (snd kv))) (source_dict (id_source_info id))) "__internals"
    (Internals
      [("_psf_model", show_psf (id_psf_model id)); ("_wcs", show_wcs (id_wcs id));
       ("_wcs_position_offset", show (id_position_offset id)); ("_wcs_color", show (id_wcs_color id));
       ("_noise_seeds", show_seeds (id_noise_seeds id));
       ("_mask_tape_bumps", if id_mask_tape_bumps id then "True" else "False")]).

Definition image_text (id : identity F P) : string := "SEImageSlice: " ++ pformat (image_state id).
End Image.
Arguments Given {V}.
Arguments Internals {V}.

(** ** lru_cache with objects as arguments *)
Section ObjectCache.
Context {C E V : Type}.
(** The text of an object, and the object after its text has been asked for. *)
Variable text : C -> string * C.
Variable hash_text : string -> Z.
(** The hash of the tuple of an object and the other arguments, and equality of the
    latter. *)
Variables (hash_key : Z -> E -> Z) (eqb : E -> E -> bool).
(** The function that is cached. *)
Variable f : C -> E -> result V.

(** The objects of the process by their address. *)
Definition heap : Type := nat -> C.
Definition set_at (h : heap) (a : nat) (c : C) : heap := fun b => if Nat.eqb b a then c else h b.

(** An entry keeps the hash of its key and the objects in it, not their texts. *)
Record slot : Type := mkslot { s_hash : Z; s_object : nat; s_args : E; s_value : V }.

(** The dictionary compares the hashes, then for each part of the key whether it is
    the same object, then [==]. The hash of a stored object has been asked for
    before, so that [==] does not change it. *)
Definition matches (h : heap) (key : Z) (a : nat) (e : E) (s : slot) : bool :=
  (key =? s_hash s) && eqb e (s_args s) &&
  (Nat.eqb a (s_object s) || (hash_text (fst (text (h a))) =? hash_text (fst (text (h (s_object s)))))).

Fixpoint take (p : slot -> bool) (l : list slot) : option (slot * list slot) :=
  match l with
  | [] => None
  | s :: l => if p s then Some (s, l)
              else match take p l with Some (s', l') => Some (s', s :: l') | None => None end
  end.

(** One call; as [Cache.cached_call]. *)
Definition call_object (maxsize : nat) (h : heap) (st : list slot) (a : nat) (e : E)
  : result V * heap * list slot :=
  let '(s, c) := text (h a) in
  let h := set_at h a c in
  let key := hash_key (hash_text s) e in
  match take (matches h key a e) st with
  | Some (s, rest) => (Ok (s_value s), h, s :: rest)
  | None =>
      match f (h a) e with
      | Ok v => (Ok v, h, firstn maxsize (mkslot key a e v :: st))
      | Raise x => (Raise x, h, st)
      end
  end.

(** What a program does with the objects: a call, an assignment to attributes of an
    object, and the clearing of the cache. *)
Inductive use : Type :=
| Ask (a : nat) (e : E)
| Assign (a : nat) (g : C -> C)
| Forget.

Fixpoint run_objects (maxsize : nat) (h : heap) (st : list slot) (us : list use) : list (result V) :=
  match us with
  | [] => []
  | Ask a e :: us => let '(r, h, st) := call_object maxsize h st a e in r :: run_objects maxsize h st us
  | Assign a g :: us => run_objects maxsize (set_at h a (g (h a))) st us
  | Forget :: us => run_objects maxsize h [] us
  end.
End ObjectCache.
Arguments Ask {C E} a e.
Arguments Assign {C E} a g.
Arguments Forget {C E}.
