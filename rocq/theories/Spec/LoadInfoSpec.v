(** What loading the objects of a tile must give. *)
From Coq Require Import ZArith Bool String List.
From Verif Require Import Lib.Base Lib.PyDict Model.LoadInfo Model.ImageInfo Spec.DesInfoSpec.
Import ListNotations.
Open Scope string_scope.
Open Scope list_scope.
Open Scope Z_scope.

Definition raises {A} (r : result A) : Prop := exists e, r = Raise e.

(** The last readable key with this lower-case form gives [v]. *)
Definition last_readable {V} (keys : list (option string)) (get : option string -> result V)
  (s : string) (v : V) : Prop :=
  exists l1 k l2, keys = l1 ++ Some k :: l2 /\ lower k = s /\ get (Some k) = Ok v /\
    forall k', In (Some k') l2 -> lower k' = s -> raises (get (Some k')).

(** The elements in order of first appearance. *)
Fixpoint firsts (seen l : list string) : list string :=
  match l with
  | [] => []
  | s :: rest => if in_dec String.string_dec s seen then firsts seen rest else s :: firsts (s :: seen) rest
  end.

(** The lower-case forms of the readable keys, in order. *)
Definition readable {V} (keys : list (option string)) (get : option string -> result V) : list string :=
  flat_map (fun k => match k, get k with Some name, Ok _ => [lower name] | _, _ => [] end) keys.

Definition sizes : list string := ["naxis1"; "naxis2"; "znaxis1"; "znaxis2"].

Definition has {V} (d : dict V) (k : string) : bool := match dget d k with Some _ => true | None => false end.

(** The scamp header with the image sizes of the image header, new keys last. *)
Definition merged {V} (im hd h : dict V) : Prop :=
  (forall k, dget h k =
     if in_dec String.string_dec k sizes
     then match dget im k with Some v => Some v | None => dget hd k end
     else dget hd k) /\
  dkeys h = dkeys hd ++ filter (fun k => has im k && negb (has hd k)) sizes.

Section Loaded.
Context {S V W A G X P Q : Type}.
Variables (has_affine : S -> bool) (affine : S -> result A)
          (galsim : S -> option (result G))
          (image_header head_header : S -> result (list (option string) * (option string -> result V)))
          (mk_wcs : dict V -> result W)
          (psfex : S -> option (result X))
          (piff : S -> option (result P)) (piff_wcs : S -> P -> result Q)
          (pixmappy : Q -> result (option Q)).

(** The WCS in the header of the image. *)
Definition gives_image_wcs (s : S) (r : result W) : Prop :=
  match image_header s with
  | Raise e => r = Raise e
  | Ok (keys, get) => r = mk_wcs (munge keys get)
  end.

(** The WCS in the scamp header, with the sizes of the image. *)
Definition gives_head_wcs (s : S) (r : result W) : Prop :=
  match image_header s, head_header s with
  | Raise e, _ => r = Raise e
  | Ok _, Raise e => r = Raise e
  | Ok (ik, ig), Ok (hk, hg) => exists h, merged (munge ik ig) (munge hk hg) h /\ r = mk_wcs h
  end.

(** A WCS that cannot be had is None if there is an affine one, and an error
    otherwise. *)
Definition wcs_field (s : S) (gives : S -> result W -> Prop) (f : field W) : Prop :=
  (exists w, gives s (Ok w) /\ f = SetTo w) \/
  (exists e, gives s (Raise e) /\ has_affine s = true /\ f = SetNone).

Definition wcs_error (s : S) (gives : S -> result W -> Prop) (e : pyexc) : Prop :=
  gives s (Raise e) /\ has_affine s = false.

Definition affine_field (s : S) (f : option A) : Prop :=
  if has_affine s then exists a, affine s = Ok a /\ f = Some a else f = None.

Definition galsim_field (s : S) (f : option G) : Prop :=
  match galsim s with None => f = None | Some r => exists g, r = Ok g /\ f = Some g end.

Definition psfex_field (s : S) (f : field X) : Prop :=
  match psfex s with
  | None => f = Absent
  | Some (Ok x) => f = SetTo x
  | Some (Raise _) => f = SetNone
  end.

(** A Piff model comes with its WCS and, if this is a pixmappy WCS, this one
    twice; or all three are None. *)
Definition piff_fields (s : S) (p : field P) (w x : field Q) : Prop :=
  match piff s with
  | None => p = Absent /\ w = Absent /\ x = Absent
  | Some r =>
      (exists m q, r = Ok m /\ piff_wcs s m = Ok q /\
         ((exists q', pixmappy q = Ok (Some q') /\ p = SetTo m /\ w = SetTo q' /\ x = SetTo q') \/
          (pixmappy q = Ok None /\ p = SetTo m /\ w = SetTo q /\ x = SetNone))) \/
      ((forall m q o, r = Ok m -> piff_wcs s m = Ok q -> pixmappy q <> Ok o) /\
         p = SetNone /\ w = SetNone /\ x = SetNone)
  end.

Definition source_loaded (skip_se : bool) (id : Z) (s : S) (x : loaded) : Prop :=
  ld_source x = s /\ ld_image_id x = id /\
  affine_field s (ld_affine_wcs x) /\ galsim_field s (ld_galsim_psf x) /\
  if skip_se then
    ld_image_wcs x = Absent /\ ld_head_wcs x = Absent /\ ld_psfex_psf x = Absent /\
    ld_piff_psf x = Absent /\ ld_piff_wcs x = Absent /\ ld_pixmappy_wcs x = Absent
  else
    wcs_field s gives_image_wcs (ld_image_wcs x) /\
    wcs_field s gives_head_wcs (ld_head_wcs x) /\
    psfex_field s (ld_psfex_psf x) /\
    piff_fields s (ld_piff_psf x) (ld_piff_wcs x) (ld_pixmappy_wcs x).

Definition coadd_loaded (s : S) (x : loaded (G := G) (X := X) (P := P) (Q := Q)) : Prop :=
  ld_source x = s /\ ld_image_id x = 0 /\
  affine_field s (ld_affine_wcs x) /\ ld_galsim_psf x = None /\
  wcs_field s gives_image_wcs (ld_image_wcs x) /\
  ld_head_wcs x = Absent /\ ld_psfex_psf x = Absent /\
  ld_piff_psf x = Absent /\ ld_piff_wcs x = Absent /\ ld_pixmappy_wcs x = Absent.

(** The exceptions that loading a source can end with. *)
Definition source_error (skip_se : bool) (s : S) (e : pyexc) : Prop :=
  (has_affine s = true /\ affine s = Raise e) \/
  galsim s = Some (Raise e) \/
  (skip_se = false /\ (wcs_error s gives_image_wcs e \/ wcs_error s gives_head_wcs e)).

Definition coadd_error (s : S) (e : pyexc) : Prop :=
  (has_affine s = true /\ affine s = Raise e) \/ wcs_error s gives_image_wcs e.

End Loaded.

(** [r] is [s] cut to its first [n] characters. *)
Definition cut (n : nat) (s r : string) : Prop :=
  starts r s /\ String.length r = Nat.min n (String.length s).

(** The row of a source: texts in full, but extensions cut to 3 characters. *)
Definition row_of {F} (e : im_entry (F := F)) (r : im_row (F := F)) : Prop :=
  r_id r = im_id e /\ r_flags r = im_flags e /\ r_magzp r = im_magzp e /\ r_scale r = im_scale e /\
  r_offset r = im_offset e /\
  r_image_path r = im_image_path e /\ r_weight_path r = im_weight_path e /\
  r_bmask_path r = im_bmask_path e /\ r_bkg_path r = im_bkg_path e /\
  cut 3 (im_image_ext e) (r_image_ext r) /\ cut 3 (im_weight_ext e) (r_weight_ext r) /\
  cut 3 (im_bmask_ext e) (r_bmask_ext r) /\ cut 3 (im_bkg_ext e) (r_bkg_ext r) /\
  im_wcs e = Ok (r_wcs r).

Definition coadd_row_of {F} (e : im_entry (F := F)) (r : im_row (F := F)) : Prop :=
  r_id r = im_id e /\ r_flags r = im_flags e /\ r_magzp r = im_magzp e /\ r_scale r = im_scale e /\
  r_offset r = im_offset e /\
  r_image_path r = "" /\ r_weight_path r = "" /\ r_bmask_path r = "" /\ r_bkg_path r = "" /\
  r_image_ext r = "" /\ r_weight_ext r = "" /\ r_bmask_ext r = "" /\ r_bkg_ext r = "" /\
  im_wcs e = Ok (r_wcs r).

(** The WCS of every image can be written. *)
Definition all_wcs {F} (coadd : im_entry (F := F)) (srcs : list (im_entry (F := F))) : Prop :=
  forall e, In e (coadd :: srcs) -> exists w, im_wcs e = Ok w.

(** The coadd is number 0, the sources 1, 2, ... in order. *)
Definition good_ids {F} (coadd : im_entry (F := F)) (srcs : list (im_entry (F := F))) : Prop :=
  im_id coadd = 0 /\ forall n e, nth_error srcs n = Some e -> im_id e = Z.of_nat n + 1.
