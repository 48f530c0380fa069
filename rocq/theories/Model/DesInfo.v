(** Model of check_info, _des_info.py:187-313. *)
From Coq Require Import ZArith Bool String Ascii List.
From Verif Require Import Lib.Base Lib.Floats Lib.PyStr.
Import ListNotations.
Open Scope string_scope.
Open Scope list_scope.
Open Scope Z_scope.

(** What a key of the dictionary can hold: nothing, None, or a text. *)
Inductive pathval : Type := Missing | Null | Path (s : string).

(** _key_is_null, 187-191: the text of a key that is not null. *)
Definition not_null (v : pathval) : option string :=
  match v with
  | Path s => if (Nat.eqb (String.length s) 0) then None else Some s
  | _ => None
  end.

Section CheckInfo.
Context {F : Type} {FO : FloatOps F}.

(** The keys of a source that are looked at; those without which Python raises
    KeyError are always there in the model. *)
Record se_entry := mkse {
  se_band : string;
  se_tilename : string;
  se_expnum : Z;
  se_ccdnum : Z;
  se_bkg_path : pathval;
  se_bmask_path : pathval;
  se_image_path : pathval;
  se_piff_path : pathval;
  se_psfex_path : pathval;
  se_psf_path : pathval;
  se_seg_path : pathval;
  se_weight_path : pathval;
  se_head_path : pathval
}.

Record tile_info := mktile {
  ti_image_path : pathval;
  ti_seg_path : pathval;
  ti_bmask_path : pathval;
  ti_psf_path : pathval;
  ti_gaia_stars_file : pathval;
  ti_cat_path : pathval;
  ti_scale : F;
  ti_band : string;
  ti_src_info : list se_entry
}.

(** coadd_keys, 207-210. *)
Definition coadd_paths (t : tile_info) : list pathval :=
  [ti_image_path t; ti_seg_path t; ti_bmask_path t; ti_psf_path t; ti_gaia_stars_file t].

(** se_keys, 256-265. *)
Definition se_paths (e : se_entry) : list pathval :=
  [se_bkg_path e; se_bmask_path e; se_image_path e; se_piff_path e;
   se_psfex_path e; se_psf_path e; se_seg_path e; se_weight_path e].

(** [os.path.basename(p).split("_")[0]]. *)
Definition tile_of_path (p : string) : string := hd EmptyString (split_on "_" (basename p)).

(** [set.add], keeping one copy of each element. *)
Definition set_add (s : string) (l : list string) : list string :=
  if existsb (String.eqb s) l then l else l ++ [s].

Definition filter_paths (l : list pathval) : list string :=
  flat_map (fun v => match not_null v with Some s => [s] | None => [] end) l.

(** The dictionary [ends], 239-245. *)
Definition path_ends (band : string) (t : tile_info) : list (pathval * list string) :=
  [ (ti_bmask_path t, [("_" ++ band ++ ".fits.fz")%string; ("_" ++ band ++ ".fits")%string]);
    (ti_cat_path t, [("_" ++ band ++ "_cat.fits")%string]);
    (ti_image_path t, [("_" ++ band ++ ".fits.fz")%string; ("_" ++ band ++ ".fits")%string]);
    (ti_psf_path t, [("_" ++ band ++ "_psfcat.psf")%string]);
    (ti_seg_path t, [("_" ++ band ++ "_segmap.fits")%string; ("_" ++ band ++ "_segmap.fits.fz")%string]) ].

(** 267. *)
Definition ccd_slug (band : string) (e : se_entry) : string :=
  ("D" ++ dec_pad 8 (se_expnum e) ++ "_" ++ band ++ "_c" ++ dec_pad 2 (se_ccdnum e) ++ "_")%string.

(** 295. *)
Definition scamp_slug (band : string) (e : se_entry) : string :=
  ("_" ++ band ++ "_c" ++ dec_pad 2 (se_ccdnum e) ++ "_scamp.ohead")%string.

(** The errors that are collected. *)
Inductive info_error : Type :=
| ErrTiles | ErrScale | ErrBands
| ErrEnd (p : string) | ErrSlug (p : string) | ErrTilename (e : se_entry)
| ErrHeadStart (p : string) | ErrHeadEnd (p : string).

(** Which element [set.pop()] and [list(set)[0]] give for a set with the given
    elements: Python leaves it open. *)
Variables (pop first : list string -> string).

(** check_info, 203-301: the list of errors. Building the first message reads
    all coadd keys (218), so a missing one is a KeyError there; [pop] on an
    empty set is a KeyError. *)
Definition info_errors (t : tile_info) : result (list info_error) :=
  (* 1 *)
  let tilenames := fold_left (fun s p => set_add (tile_of_path p) s) (filter_paths (coadd_paths t)) [] in
  e1 <- (if Nat.ltb 1 (length tilenames)
         then if existsb (fun v => match v with Missing => true | _ => false end) (coadd_paths t)
              then Raise KeyError else Ok [ErrTiles]
         else Ok []) ;;
  if Nat.eqb (length tilenames) 0 then Raise KeyError else
  let tilename := pop tilenames in
  (* 2 *)
  let e2 := if negb (feqb (ti_scale t) fone) then [ErrScale] else [] in
  (* 3 *)
  let bands := fold_left (fun s e => set_add (se_band e) s) (ti_src_info t) (set_add (ti_band t) []) in
  let e3 := if Nat.ltb 1 (length bands) then [ErrBands] else [] in
  let band := first bands in
  (* 4 *)
  let e4 := flat_map (fun q => match not_null (fst q) with
                               | None => []
                               | Some p => if existsb (fun e => endswith e p) (snd q) then [] else [ErrEnd p]
                               end) (path_ends band t) in
  (* 5 *)
  let e5 := flat_map (fun e =>
              flat_map (fun p => if startswith (ccd_slug band e) (basename p) then [] else [ErrSlug p])
                (filter_paths (se_paths e))) (ti_src_info t) in
  (* 6 *)
  let e6 := flat_map (fun e => if String.eqb (se_tilename e) tilename then [] else [ErrTilename e])
              (ti_src_info t) in
  (* 7 *)
  let e7 := flat_map (fun e =>
              match not_null (se_head_path e) with
              | None => []
              | Some p =>
                  (if startswith tilename (basename p) then [] else [ErrHeadStart p]) ++
                  (if endswith (scamp_slug band e) (basename p) then [] else [ErrHeadEnd p])
              end) (ti_src_info t) in
  Ok (e1 ++ e2 ++ e3 ++ e4 ++ e5 ++ e6 ++ e7).

(** 303-313. *)
Definition check_info (t : tile_info) : result unit :=
  errors <- info_errors t ;;
  if Nat.ltb 0 (length errors) then Raise RuntimeError else Ok tt.

End CheckInfo.
