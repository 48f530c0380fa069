(** C51, C52, C65: image identifiers, header munging, loading of a tile. *)
From Coq Require Import ZArith Bool String Ascii List Lia.
From Verif Require Import Lib.Base Lib.PyDict Model.LoadInfo Model.ImageInfo Spec.DesInfoSpec Spec.LoadInfoSpec
  Proofs.LoadInfoProofs.
Import ListNotations.
Open Scope string_scope.
Open Scope list_scope.
Open Scope Z_scope.

(** C52. A lower-case key has the value of the last readable header key with
    this lower-case form. *)
Theorem C52_values : forall (V : Type) keys (get : option string -> result V) s v,
  dget (munge keys get) s = Some v <-> last_readable keys get s v.
Proof. intros V keys get. exact (munge_get get keys). Qed.

(** C52. A key is absent exactly if no header key of this form is readable. *)
Theorem C52_absent : forall (V : Type) keys (get : option string -> result V) s,
  dget (munge keys get) s = None <->
  forall k, In (Some k) keys -> lower k = s -> raises (get (Some k)).
Proof. intros V keys get. exact (munge_none get keys). Qed.

(** C52. The keys are the lower-case forms of the readable keys, each once, in
    order of first appearance. *)
Theorem C52_keys : forall (V : Type) keys (get : option string -> result V),
  dkeys (munge keys get) = firsts [] (readable keys get) /\ NoDup (dkeys (munge keys get)).
Proof. intros V keys get. split; [exact (munge_keys get keys)|apply munge_nodup]. Qed.

(** C52. No key has an upper-case letter. *)
Theorem C52_lower_case : forall (V : Type) keys (get : option string -> result V) k,
  In k (dkeys (munge keys get)) -> lower k = k.
Proof.
  intros V keys get k H. rewrite munge_keys in H. apply firsts_In in H as [H _].
  unfold readable in H. apply in_flat_map in H as ([n|] & _ & H); [|destruct (get None); destruct H].
  destruct (get (Some n)); [|destruct H]. destruct H as [<-|[]].
  clear. induction n as [|c n IH]; [reflexivity|]. cbn [lower]. rewrite IH. f_equal.
  destruct c as [[] [] [] [] [] [] [] []]; reflexivity.
Qed.

Section C65.
Context {S V W A G X P Q : Type}.
Variables (has_affine : S -> bool) (affine : S -> result A)
          (galsim : S -> option (result G))
          (image_header head_header : S -> result (list (option string) * (option string -> result V)))
          (mk_wcs : dict V -> result W)
          (psfex : S -> option (result X))
          (piff : S -> option (result P)) (piff_wcs : S -> P -> result Q)
          (pixmappy : Q -> result (option Q)).
Notation ld := (load_objects has_affine affine galsim image_header head_header mk_wcs psfex piff piff_wcs pixmappy).
Notation src_loaded := (source_loaded has_affine affine galsim image_header head_header mk_wcs psfex piff piff_wcs pixmappy).
Notation src_error := (source_error has_affine affine galsim image_header head_header mk_wcs).

(** C65. What a successful load gives: the coadd, and all the sources in
    their order, each with exactly the described objects. *)
Theorem C65_loaded : forall skip_se coadd sources c xs,
  ld skip_se coadd sources = Ok (c, xs) <->
  coadd_loaded has_affine affine image_header mk_wcs coadd c /\
  length xs = length sources /\
  forall n s, nth_error sources n = Some s ->
    exists x, nth_error xs n = Some x /\ src_loaded skip_se (Z.of_nat n + 1) s x.
Proof. intros. apply load_objects_ok. Qed.

(** C65. What an unsuccessful load means: the exception is that of the coadd,
    or that of the first source that cannot be loaded. *)
Theorem C65_errors : forall skip_se coadd sources e,
  ld skip_se coadd sources = Raise e ->
  coadd_error has_affine affine image_header mk_wcs coadd e \/
  exists n s, nth_error sources n = Some s /\ src_error skip_se s e /\
    forall m s', (m < n)%nat -> nth_error sources m = Some s' ->
      exists x, src_loaded skip_se (Z.of_nat m + 1) s' x.
Proof. intros. now apply load_objects_err with (1 := H). Qed.

(** C51. The coadd is number 0, the sources 1, 2, ... in order. *)
Theorem C51_ids : forall skip_se coadd sources c xs,
  ld skip_se coadd sources = Ok (c, xs) ->
  ld_image_id c = 0 /\ length xs = length sources /\
  forall n x, nth_error xs n = Some x -> ld_image_id x = Z.of_nat n + 1 /\ nth_error sources n = Some (ld_source x).
Proof.
  intros skip_se coadd sources c xs H. apply load_objects_ok in H as ((_ & H0 & _) & Hl & Hn).
  split; [exact H0|]. split; [exact Hl|]. intros n x Hx.
  destruct (nth_error sources n) as [s|] eqn:Es.
  - destruct (Hn n s Es) as (y & K1 & K2 & K3 & _). assert (y = x) by congruence. subst y.
    split; [exact K3|congruence].
  - exfalso. apply nth_error_None in Es. rewrite <- Hl in Es. apply nth_error_None in Es. congruence.
Qed.

(** C51. The table of the images of a loaded tile: whatever else its entries
    hold, row 0 is the coadd and row i is the source with number i. *)
Theorem C51_image_table : forall (F : Type) skip_se coadd sources c xs (entry : loaded -> im_entry (F := F)),
  ld skip_se coadd sources = Ok (c, xs) -> xs <> [] ->
  (forall x, im_id (entry x) = ld_image_id x) ->
  (forall x, In x (c :: xs) -> exists w, im_wcs (entry x) = Ok w) ->
  exists r0 rows, build_image_info (entry c) (map entry xs) = Ok (r0 :: rows) /\
    coadd_row_of (entry c) r0 /\ length rows = length xs /\
    (forall x, In x xs -> exists r, nth_error (r0 :: rows) (Z.to_nat (ld_image_id x)) = Some r /\ row_of (entry x) r).
Proof.
  intros F skip_se coadd sources c xs entry H Hne Hid Hw.
  apply C51_ids in H as (H0 & Hl & Hn).
  destruct (info_core (entry c) (map entry xs)) as (r0 & rows & K1 & K2 & K3 & _).
  - intros e He. change (entry c :: map entry xs) with (map entry (c :: xs)) in He.
    apply in_map_iff in He as (x & <- & Hx). exact (Hw x Hx).
  - destruct xs; [congruence|discriminate].
  - exists r0, rows. split.
    + apply K3. split; [now rewrite Hid|]. intros n e He. rewrite nth_error_map in He.
      destruct (nth_error xs n) as [x|] eqn:Ex; [|discriminate]. cbn in He. injection He as <-.
      rewrite Hid. exact (proj1 (Hn n x Ex)).
    + split; [exact K1|]. split; [rewrite <- (F2len _ _ _ K2); apply map_length|].
      intros x Hx. apply In_nth_error in Hx as (n & Ex). destruct (Hn n x Ex) as [Ei _].
      destruct (Forall2_nth _ _ _ K2 n (entry x)) as (r & R1 & R2); [rewrite nth_error_map, Ex; reflexivity|].
      exists r. split; [|exact R2]. rewrite Ei. replace (Z.to_nat (Z.of_nat n + 1)) with (Datatypes.S n) by lia. exact R1.
Qed.
End C65.

(** C65. PSF models that cannot be loaded never stop the load. *)
Theorem C65_psf_errors_are_not_fatal :
  forall (S V W A G X P Q : Type) (has_affine : S -> bool) (affine : S -> result A) (galsim : S -> option (result G))
    (image_header head_header : S -> result (list (option string) * (option string -> result V)))
    (mk_wcs : dict V -> result W)
    (psfex psfex' : S -> option (result X)) (piff piff' : S -> option (result P))
    (piff_wcs piff_wcs' : S -> P -> result Q) (pixmappy pixmappy' : Q -> result (option Q)) skip_se coadd sources e,
  load_objects has_affine affine galsim image_header head_header mk_wcs psfex piff piff_wcs pixmappy
    skip_se coadd sources = Raise e ->
  load_objects has_affine affine galsim image_header head_header mk_wcs psfex' piff' piff_wcs' pixmappy'
    skip_se coadd sources = Raise e.
Proof.
  intros S V W A G X P Q has_affine affine galsim image_header head_header mk_wcs psfex psfex' piff piff'
    piff_wcs piff_wcs' pixmappy pixmappy' skip_se coadd sources e.
  unfold load_objects.
  destruct (or_affine _ _ _) as [iw|]; [|exact (fun H => H)]. cbn [bind].
  destruct (if has_affine coadd then _ else _) as [a|]; [|exact (fun H => H)]. cbn [bind].
  assert (K : forall l i, load_sources has_affine affine galsim image_header head_header mk_wcs psfex piff piff_wcs pixmappy skip_se i l = Raise e ->
    load_sources has_affine affine galsim image_header head_header mk_wcs psfex' piff' piff_wcs' pixmappy' skip_se i l = Raise e).
  { induction l as [|s l IH]; intros i; cbn [load_sources]; [exact (fun H => H)|].
    assert (E : (exists x y, load_source has_affine affine galsim image_header head_header mk_wcs psfex piff piff_wcs pixmappy skip_se i s = Ok x /\
                 load_source has_affine affine galsim image_header head_header mk_wcs psfex' piff' piff_wcs' pixmappy' skip_se i s = Ok y) \/
                (exists e', load_source has_affine affine galsim image_header head_header mk_wcs psfex piff piff_wcs pixmappy skip_se i s = Raise e' /\
                 load_source has_affine affine galsim image_header head_header mk_wcs psfex' piff' piff_wcs' pixmappy' skip_se i s = Raise e')).
    { unfold load_source.
      destruct (if has_affine s then _ else _) as [b|]; [|right; eexists; split; reflexivity]. cbn [bind].
      destruct (opt_result (galsim s)) as [g|]; [|right; eexists; split; reflexivity]. cbn [bind].
      destruct skip_se; [left; eexists; eexists; split; reflexivity|].
      destruct (or_affine has_affine s (image_wcs image_header mk_wcs s)) as [w1|]; [|right; eexists; split; reflexivity]. cbn [bind].
      destruct (or_affine has_affine s (head_wcs image_header head_header mk_wcs s)) as [w2|]; [|right; eexists; split; reflexivity]. cbn [bind].
      destruct (load_piff piff piff_wcs pixmappy s) as [[? ?] ?]. destruct (load_piff piff' piff_wcs' pixmappy' s) as [[? ?] ?].
      left. eexists. eexists. split; reflexivity. }
    destruct E as [(x & y & -> & ->)|(e' & -> & ->)]; [|exact (fun H => H)]. cbn [bind].
    specialize (IH (i + 1)).
    destruct (load_sources has_affine affine galsim image_header head_header mk_wcs psfex piff piff_wcs pixmappy skip_se (i + 1) l);
      cbn [bind]; [discriminate|]. intros E. rewrite IH; [reflexivity|]. congruence. }
  specialize (K sources 0).
  destruct (load_sources has_affine affine galsim image_header head_header mk_wcs psfex piff piff_wcs pixmappy skip_se 0 sources);
    cbn [bind]; [discriminate|]. intros E. rewrite K; [reflexivity|]. congruence.
Qed.

(** C51. The table in all cases: with at least one source and all the WCS, a
    table of 1 + n rows if the numbers are right and AssertionError otherwise;
    without sources, ValueError; the exception of a WCS that cannot be
    written. *)
Theorem C51_table_or_assertion : forall (F : Type) (coadd : im_entry (F := F)) srcs,
  all_wcs coadd srcs -> srcs <> [] ->
  (good_ids coadd srcs -> exists r0 rows, build_image_info coadd srcs = Ok (r0 :: rows) /\
     coadd_row_of coadd r0 /\ Forall2 row_of srcs rows) /\
  (~ good_ids coadd srcs -> build_image_info coadd srcs = Raise AssertionError).
Proof.
  intros F coadd srcs Hw Hne. destruct (info_core coadd srcs Hw Hne) as (r0 & rows & K1 & K2 & K3 & K4).
  split; [|exact K4]. intros H. exists r0, rows. auto.
Qed.

Theorem C51_no_sources : forall (F : Type) (coadd : im_entry (F := F)) w,
  im_wcs coadd = Ok w -> build_image_info coadd [] = Raise ValueError.
Proof. exact @info_empty. Qed.

Theorem C51_wcs_errors : forall (F : Type) (coadd : im_entry (F := F)) srcs,
  ~ all_wcs coadd srcs ->
  exists e x, In x (coadd :: srcs) /\ im_wcs x = Raise e /\ build_image_info coadd srcs = Raise e.
Proof. exact @info_wcs_error. Qed.

(** C51. Extensions are cut: one of four letters is not kept. *)
Theorem C51_extension_kept_refuted : exists (e : im_entry (F := Z)) r0 r,
  build_image_info (mkim 0 0 0 0 0 "" "" "" "" "" "" "" "" (Ok "{}")) [e] = Ok [r0; r] /\
  im_image_ext e = "SCI1" /\ r_image_ext r = "SCI".
Proof.
  exists (mkim 1 0 30 1 1 "a.fits" "SCI1" "b.fits" "WGT" "c.fits" "MSK" "d.fits" "BKG" (Ok "{'naxis1': 2048}")).
  eexists. eexists. vm_compute. repeat split; reflexivity.
Qed.

(** Examples. A header with a repeated key, a key that cannot be read and a
    nameless card. *)
Definition ex_get (k : option string) : result Z :=
  match k with
  | Some "NAXIS1" => Ok 2048 | Some "Naxis1" => Ok 7 | Some "CRVAL1" => Ok 12
  | None => Ok 0 | _ => Raise OtherError
  end.

Example C52_ex : munge [Some "NAXIS1"; None; Some "HISTORY"; Some "CRVAL1"; Some "Naxis1"] ex_get =
  [("naxis1", 7); ("crval1", 12)].
Proof. vm_compute. reflexivity. Qed.

(** Loading three sources, the second with an affine WCS and no header. Sources
    are numbers; headers list the key CRVAL1. *)
Definition ex_load (bad : Z) :=
  load_objects (S := Z) (V := Z) (W := dict Z) (A := Z) (G := Z) (X := Z) (P := Z) (Q := Z)
    (fun s => s =? 12) (fun s => Ok (s * 2)) (fun s => None)
    (fun s => if s =? 12 then Raise IOError else Ok ([Some "NAXIS1"; Some "CRVAL1"], ex_get))
    (fun s => if s =? bad then Raise IOError else Ok ([Some "CRVAL1"; Some "Naxis1"], ex_get))
    (fun d => Ok d) (fun s => if s =? 11 then Some (Raise IOError) else None)
    (fun s => Some (Ok (s + 100))) (fun s p => Ok p) (fun q => Ok (if q =? 113 then Some (q + 1) else None))
    false 10 [11; 12; 13].

Example C65_ex : match ex_load 12 with
  | Ok (c, [a; b; d]) =>
      ld_image_id c = 0 /\ ld_image_id a = 1 /\ ld_image_id b = 2 /\ ld_image_id d = 3 /\
      ld_head_wcs a = SetTo [("crval1", 12); ("naxis1", 2048)] /\ ld_psfex_psf a = SetNone /\
      ld_pixmappy_wcs a = SetNone /\
      ld_image_wcs b = SetNone /\ ld_affine_wcs b = Some 24 /\ ld_head_wcs b = SetNone /\
      ld_piff_wcs d = SetTo 114 /\ ld_pixmappy_wcs d = SetTo 114
  | _ => False
  end.
Proof. vm_compute. repeat split; reflexivity. Qed.

Example C65_ex_error : ex_load 13 = Raise IOError.
Proof. vm_compute. reflexivity. Qed.

Example C51_ex_bad_ids :
  build_image_info (F := Z) (mkim 0 0 0 0 0 "" "" "" "" "" "" "" "" (Ok "{}"))
    [mkim 2 0 30 1 1 "a.fits" "SCI" "b.fits" "WGT" "c.fits" "MSK" "d.fits" "BKG" (Ok "{}")] = Raise AssertionError.
Proof. vm_compute. reflexivity. Qed.

Print Assumptions C52_values.
Print Assumptions C52_absent.
Print Assumptions C52_keys.
Print Assumptions C52_lower_case.
Print Assumptions C65_loaded.
Print Assumptions C65_errors.
Print Assumptions C65_psf_errors_are_not_fatal.
Print Assumptions C51_ids.
Print Assumptions C51_image_table.
Print Assumptions C51_table_or_assertion.
Print Assumptions C51_no_sources.
Print Assumptions C51_wcs_errors.
Print Assumptions C51_extension_kept_refuted.
