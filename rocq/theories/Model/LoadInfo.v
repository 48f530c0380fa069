(** Model of load_objects_into_info and _munge_fits_header, _load_info.py:18-219. *)
From Coq Require Import ZArith Bool String List.
From Verif Require Import Lib.Base Lib.PyDict.
Import ListNotations.
Open Scope string_scope.
Open Scope list_scope.
Open Scope Z_scope.

Section Munge.
Context {V : Type}.

(** _munge_fits_header, 212-219. [keys] is what [hdr.keys()] gives (a card
    without a name has the key None, which has no [lower]); [get] is [hdr[k]],
    which may raise. Key texts are ASCII, as FITS requires. *)
Definition munge_step (get : option string -> result V) (dct : dict V) (k : option string) : dict V :=
  match get k, k with
  | Ok v, Some name => dset dct (lower name) v
  | _, _ => dct
  end.

Definition munge (keys : list (option string)) (get : option string -> result V) : dict V :=
  fold_left (munge_step get) keys [].

End Munge.

(** A key of a dictionary that the function may add: not added, added with
    None, added with a value. *)
Inductive field (A : Type) : Type := Absent | SetNone | SetTo (a : A).
Arguments Absent {A}.
Arguments SetNone {A}.
Arguments SetTo {A} a.

Section Load.
(** Sources, header values, and the objects that are made. *)
Context {S V W A G X P Q : Type}.

(** What the outside world and the other libraries do with a source (the
    coadd is one too): the keys and values of the FITS header of the image
    (73-74, 131-132 and 146-147) and of the scamp header (151), the
    constructors of FastHashingWCS, AffineWCS (87, 115), _build_gsobject
    (118), DES_PSFEx (173), get_piff_psf and the lookup of its WCS (183-184).
    [pixmappy] is the type test of 187 with the adjustment of the origin in
    place (191-199): None if the WCS is of another kind. Each may raise. The
    progress messages and log lines are not modelled. *)
Variables (has_affine : S -> bool) (affine : S -> result A)
          (galsim : S -> option (result G))
          (image_header head_header : S -> result (list (option string) * (option string -> result V)))
          (mk_wcs : dict V -> result W)
          (psfex : S -> option (result X))
          (piff : S -> option (result P)) (piff_wcs : S -> P -> result Q)
          (pixmappy : Q -> result (option Q)).

Record loaded := mkloaded {
  ld_source : S;
  ld_image_id : Z;
  ld_affine_wcs : option A;
  ld_galsim_psf : option G;
  ld_image_wcs : field W;
  ld_head_wcs : field W;
  ld_psfex_psf : field X;
  ld_piff_psf : field P;
  ld_piff_wcs : field Q;
  ld_pixmappy_wcs : field Q
}.

Definition opt_result {B} (o : option (result B)) : result (option B) :=
  match o with
  | None => Ok None
  | Some (Ok b) => Ok (Some b)
  | Some (Raise e) => Raise e
  end.

(** The except clauses 75-84, 133-142, 158-167. *)
Definition or_affine (s : S) (r : result W) : result (field W) :=
  match r with
  | Ok w => Ok (SetTo w)
  | Raise e => if has_affine s then Ok SetNone else Raise e
  end.

(** 71-74 and 128-132. *)
Definition image_wcs (s : S) : result W :=
  ' (keys, get) <- image_header s ;;
  mk_wcs (munge keys get).

(** 144-157. *)
Definition naxis_keys : list string := ["naxis1"; "naxis2"; "znaxis1"; "znaxis2"].

Definition copy_keys (from into : dict V) : dict V :=
  fold_left (fun h key => match dget from key with Some v => dset h key v | None => h end) naxis_keys into.

Definition head_wcs (s : S) : result W :=
  ' (ikeys, iget) <- image_header s ;;
  let im_hdr := munge ikeys iget in
  ' (hkeys, hget) <- head_header s ;;
  let hdr := munge hkeys hget in
  mk_wcs (copy_keys im_hdr hdr).

(** 170-177. *)
Definition load_psfex (s : S) : field X :=
  match psfex s with
  | None => Absent
  | Some (Ok x) => SetTo x
  | Some (Raise _) => SetNone
  end.

(** 180-207. *)
Definition load_piff (s : S) : field P * field Q * field Q :=
  match piff s with
  | None => (Absent, Absent, Absent)
  | Some r =>
      match (p <- r ;; q <- piff_wcs s p ;; o <- pixmappy q ;; Ok (p, q, o)) with
      | Ok (p, _, Some q) => (SetTo p, SetTo q, SetTo q)
      | Ok (p, q, None) => (SetTo p, SetTo q, SetNone)
      | Raise _ => (SetNone, SetNone, SetNone)
      end
  end.

(** One turn of the loop, 104-207. *)
Definition load_source (skip_se : bool) (index : Z) (s : S) : result loaded :=
  a <- (if has_affine s then a <- affine s ;; Ok (Some a) else Ok None) ;;
  g <- opt_result (galsim s) ;;
  if skip_se then
    Ok (mkloaded s (index + 1) a g Absent Absent Absent Absent Absent Absent)
  else
    iw <- or_affine s (image_wcs s) ;;
    hw <- or_affine s (head_wcs s) ;;
    let ps := load_psfex s in
    let '(pp, pw, px) := load_piff s in
    Ok (mkloaded s (index + 1) a g iw hw ps pp pw px).

Fixpoint load_sources (skip_se : bool) (index : Z) (l : list S) : result (list loaded) :=
  match l with
  | [] => Ok []
  | s :: rest =>
      x <- load_source skip_se index s ;;
      xs <- load_sources skip_se (index + 1) rest ;;
      Ok (x :: xs)
  end.

(** load_objects_into_info, 70-209: the coadd (71-90), then its sources. The
    conversions of image_shape to a tuple (93-94, 109-110) are not modelled. *)
Definition load_objects (skip_se : bool) (coadd : S) (sources : list S) : result (loaded * list loaded) :=
  iw <- or_affine coadd (image_wcs coadd) ;;
  a <- (if has_affine coadd then a <- affine coadd ;; Ok (Some a) else Ok None) ;;
  let c := mkloaded coadd 0 a None iw Absent Absent Absent Absent Absent in
  xs <- load_sources skip_se 0 sources ;;
  Ok (c, xs).

End Load.
