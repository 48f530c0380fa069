(** Model of _build_image_info, _pizza_cutter.py:908-984. *)
From Coq Require Import ZArith Bool String List.
From Verif Require Import Lib.Base.
Import ListNotations.
Open Scope string_scope.
Open Scope list_scope.
Open Scope Z_scope.

Section ImageInfo.
Context {F : Type}.

(** The keys of the coadd and of a source that are read. The paths and
    extensions of the coadd are not. *)
Record im_entry := mkim {
  im_id : Z;
  im_flags : Z;
  im_magzp : F;
  im_scale : F;
  im_offset : F;
  im_image_path : string; im_image_ext : string;
  im_weight_path : string; im_weight_ext : string;
  im_bmask_path : string; im_bmask_ext : string;
  im_bkg_path : string; im_bkg_ext : string;
  im_wcs : result string
}.
(** [im_wcs] is [json.dumps(eval(str(_noerr_load_image_wcs(se))))], 908-918,
    928, 932-934, 978-980: the text of the WCS, or the exception. *)

(** A row of the table. *)
Record im_row := mkrow {
  r_id : Z;
  r_flags : Z;
  r_magzp : F;
  r_scale : F;
  r_offset : F;
  r_image_path : string; r_image_ext : string;
  r_weight_path : string; r_weight_ext : string;
  r_bmask_path : string; r_bmask_ext : string;
  r_bkg_path : string; r_bkg_ext : string;
  r_wcs : string
}.

(** Storing a text in a numpy column of texts of [n] characters cuts it. *)
Definition fit (n : nat) (s : string) : string := String.substring 0 n s.

(** [max(l)], with ValueError on an empty list. *)
Definition pymax (l : list nat) : result nat :=
  match l with
  | [] => Raise ValueError
  | a :: rest => Ok (fold_left Nat.max rest a)
  end.

Fixpoint mapM {A B} (f : A -> result B) (l : list A) : result (list B) :=
  match l with
  | [] => Ok []
  | a :: rest => b <- f a ;; bs <- mapM f rest ;; Ok (b :: bs)
  end.

(** 944-953. *)
Definition str_lengths (e : im_entry) : list nat :=
  map String.length
    [im_image_path e; im_image_ext e; im_bkg_path e; im_bkg_ext e;
     im_weight_path e; im_weight_ext e; im_bmask_path e; im_bmask_ext e].

(** 968-980; [plen], [elen], [wlen] are the widths of the columns (956-960;
    get_image_info_struct is in the meds package). *)
Definition image_row (plen elen wlen : nat) (e : im_entry) : result im_row :=
  w <- im_wcs e ;;
  Ok (mkrow (im_id e) (im_flags e) (im_magzp e) (im_scale e) (im_offset e)
        (fit plen (im_image_path e)) (fit elen (im_image_ext e))
        (fit plen (im_weight_path e)) (fit elen (im_weight_ext e))
        (fit plen (im_bmask_path e)) (fit elen (im_bmask_ext e))
        (fit plen (im_bkg_path e)) (fit elen (im_bkg_ext e))
        (fit wlen w)).

(** 962-967: the coadd has no paths. *)
Definition coadd_row (wlen : nat) (e : im_entry) : result im_row :=
  w <- im_wcs e ;;
  Ok (mkrow (im_id e) (im_flags e) (im_magzp e) (im_scale e) (im_offset e)
        "" "" "" "" "" "" "" "" (fit wlen w)).

Definition build_image_info (coadd : im_entry) (srcs : list im_entry) : result (list im_row) :=
  (* 924-940 *)
  cw <- im_wcs coadd ;;
  sw <- mapM im_wcs srcs ;;
  max_wcs_len <- pymax (String.length cw :: map String.length sw) ;;
  (* 943-954 *)
  lens <- mapM (fun e => pymax (str_lengths e)) srcs ;;
  max_str_len <- pymax lens ;;
  (* 956-980 *)
  r0 <- coadd_row max_wcs_len coadd ;;
  rows <- mapM (image_row max_str_len 3 max_wcs_len) srcs ;;
  let ii := r0 :: rows in
  (* 982 *)
  if (if list_eq_dec Z.eq_dec (map r_id ii) (zrange 0 (Z.of_nat (length ii))) then true else false)
  then Ok ii else Raise AssertionError.

End ImageInfo.
