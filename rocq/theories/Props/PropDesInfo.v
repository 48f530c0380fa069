(** C50: the consistency check on the description of a tile. *)
From Coq Require Import ZArith Bool String Ascii List Lia.
From Verif Require Import Lib.Base Lib.Floats Lib.PyStr Model.DesInfo Spec.DesInfoSpec Proofs.DesInfoProofs.
Import ListNotations.
Open Scope string_scope.
Open Scope list_scope.
Open Scope Z_scope.

(** C50: check_info accepts a description exactly when all its parts agree on
    one tile and one band, whatever the iteration order of sets. *)
Theorem C50_accepts_exactly_the_consistent_tiles :
  forall (F : Type) (FO : FloatOps F) pop first (t : tile_info (F := F)),
    picks pop -> picks first ->
    (check_info pop first t = Ok tt <-> exists tile band, consistent t tile band).
Proof. intros F FO pop first t H1 H2. exact (check_info_iff pop first H1 H2 t). Qed.

(** C50: an inconsistency is reported as a RuntimeError, provided that some
    coadd file is named and that, if the coadd files name two tiles, no coadd
    key is absent. *)
Theorem C50_reports_inconsistency :
  forall (F : Type) (FO : FloatOps F) pop first (t : tile_info (F := F)),
    picks pop -> picks first ->
    (exists v p, coadd_file t v /\ names v p) ->
    (~ coadd_file t Missing \/
     forall v p tp v' p' tp', coadd_file t v -> coadd_file t v' -> names v p -> names v' p' ->
       tile_part p tp -> tile_part p' tp' -> tp = tp') ->
    ~ (exists tile band, consistent t tile band) ->
    check_info pop first t = Raise RuntimeError.
Proof. intros F FO pop first t H1 H2. exact (check_info_reports pop first H1 H2 t). Qed.

(** C50: with no coadd file named the check raises a KeyError. *)
Theorem C50_no_coadd_file :
  forall (F : Type) (FO : FloatOps F) pop first (t : tile_info (F := F)),
    picks pop -> picks first ->
    (~ exists v p, coadd_file t v /\ names v p) -> check_info pop first t = Raise KeyError.
Proof. intros F FO pop first t H1 H2. exact (check_info_no_tile pop first H1 H2 t). Qed.

(** C50: two tile names and an absent coadd key: a KeyError, not the report. *)
Theorem C50_two_tiles_and_absent_key :
  forall (F : Type) (FO : FloatOps F) pop first (t : tile_info (F := F)) v p tp v' p' tp',
    picks pop -> picks first ->
    coadd_file t v -> coadd_file t v' -> names v p -> names v' p' -> tile_part p tp -> tile_part p' tp' ->
    tp <> tp' -> coadd_file t Missing -> check_info pop first t = Raise KeyError.
Proof.
  intros F FO pop first t v p tp v' p' tp' H1 H2.
  exact (check_info_missing_key pop first H1 H2 t v p tp v' p' tp').
Qed.

(** C50: the outcome does not depend on the iteration order of sets. *)
Theorem C50_order_does_not_matter :
  forall (F : Type) (FO : FloatOps F) pop first pop' first' (t : tile_info (F := F)),
    picks pop -> picks first -> picks pop' -> picks first' ->
    check_info pop first t = check_info pop' first' t.
Proof. intros F FO. exact check_info_order. Qed.

(** C50: the tile and the band of a consistent description are determined. *)
Theorem C50_tile_and_band_are_unique :
  forall (F : Type) (FO : FloatOps F) (t : tile_info (F := F)) tile band tile' band',
    consistent t tile band -> consistent t tile' band' -> tile = tile' /\ band = band'.
Proof.
  intros F FO t tile band tile' band' ((v & p & Hv & Hp) & H1 & _ & H2 & _) (_ & H3 & _ & H4 & _). split.
  - transitivity (tile_of_path p); [|symmetry]; apply tile_part_iff; eauto.
  - congruence.
Qed.

(** Examples in doubles. *)
Definition ex_se : se_entry :=
  mkse "g" "DES2122+0001" 233601 3 Null
    (Path "/d/D00233601_g_c03_r3650p01_immasked.fits") (Path "/d/D00233601_g_c03_r3650p01_immasked.fits")
    (Path "D00233601_g_c03_r3650p01_piff.fits") Missing Missing Missing
    (Path "/d/D00233601_g_c03_r3650p01_immasked.fits")
    (Path "/h/DES2122+0001_r3764p01_D00233601_g_c03_scamp.ohead").

Definition ex_tile : tile_info (F := f64) :=
  mktile (Path "/c/DES2122+0001_r3764p01_g.fits.fz") (Path "/c/DES2122+0001_r3764p01_g_segmap.fits")
    (Path "/c/DES2122+0001_r3764p01_g.fits.fz") Missing (Path "DES2122+0001_gaia.fits") Null
    fone "g" [ex_se].

Definition hd_pick (l : list string) : string := hd "" l.

Lemma hd_picks : picks hd_pick.
Proof. intros [|x l] H; [congruence|]. left. reflexivity. Qed.

Example C50_ex_accepts : check_info hd_pick hd_pick ex_tile = Ok tt.
Proof. vm_compute. reflexivity. Qed.

Example C50_ex_consistent : exists tile band, consistent ex_tile tile band.
Proof. exact (proj1 (C50_accepts_exactly_the_consistent_tiles _ _ _ _ _ hd_picks hd_picks) C50_ex_accepts). Qed.

(** A source of another band; a scale that is not 1; a catalog of another band. *)
Definition ex_bad (band : string) (scale : f64) (cat : pathval) (se : se_entry) : tile_info (F := f64) :=
  mktile (Path "/c/DES2122+0001_r3764p01_g.fits.fz") Null Null Null Null cat scale band [se].

Example C50_ex_rejects :
  check_info hd_pick hd_pick (ex_bad "r" fone Null ex_se) = Raise RuntimeError /\
  check_info hd_pick hd_pick (ex_bad "g" fhalf Null ex_se) = Raise RuntimeError /\
  check_info hd_pick hd_pick (ex_bad "g" fone (Path "DES2122+0001_r3764p01_r_cat.fits") ex_se) = Raise RuntimeError /\
  check_info hd_pick hd_pick (ex_bad "g" fone (Path "DES2122+0001_r3764p01_g_cat.fits") ex_se) = Ok tt.
Proof. vm_compute. repeat split; reflexivity. Qed.

(** The hypotheses of the theorems on KeyError are met. *)
Example C50_ex_key_errors :
  check_info hd_pick hd_pick (mktile (F := f64) Null Null Null Missing Null Null fone "g" []) = Raise KeyError /\
  check_info hd_pick hd_pick
    (mktile (F := f64) (Path "A_g.fits") (Path "B_g_segmap.fits") Null Missing Null Null fone "g" []) = Raise KeyError.
Proof. vm_compute. split; reflexivity. Qed.

Print Assumptions C50_accepts_exactly_the_consistent_tiles.
Print Assumptions C50_reports_inconsistency.
Print Assumptions C50_no_coadd_file.
Print Assumptions C50_two_tiles_and_absent_key.
Print Assumptions C50_order_does_not_matter.
Print Assumptions C50_tile_and_band_are_unique.
