(** C89: the grid cell of a point. C90: a WCS from header cards. *)
From Coq Require Import ZArith Reals List Bool String Lia Lra SpecFloat.
From Verif Require Import Lib.Base Lib.Floats Lib.PyDict Lib.PyText Model.PiffCell
  Spec.FloatSpec Spec.PiffCellSpec Proofs.F64Facts Proofs.PiffCellProofs.
Import ListNotations.
Open Scope Z_scope.

(** C89. In double arithmetic the answer is the entry of the one cell that
    covers the point, for every double coordinate, although the quotient that
    selects the cell is rounded. *)
Theorem C89_cell_of_point :
  forall (x y : f64) (vx vy : R) (msk : img bool) (g kx ky : Z),
  f64_is x vx -> f64_is y vy -> 1 <= g ->
  nrows msk * g <= 2 ^ 53 -> ncols msk * g <= 2 ^ 53 ->
  cell_covers g (ncols msk) kx vx -> cell_covers g (nrows msk) ky vy ->
  check_point_in_bad_piff_model_mask x y msk g = Ok (px msk ky kx).
Proof.
  intros x y vx vy msk g kx ky Hx Hy Hg Br Bc Cx Cy.
  unfold check_point_in_bad_piff_model_mask.
  change (@fdiv f64 F64Ops) with (SFdiv 53 1024). change (@fofZ f64 F64Ops) with f64_ofZ.
  assert (Nx : 1 <= ncols msk) by (destruct Cx; lia).
  assert (Ny : 1 <= nrows msk) by (destruct Cy; lia).
  pose proof (clipped_floor_covers x vx g (ncols msk) Hx Hg Nx Bc) as Gx.
  pose proof (clipped_floor_covers y vy g (nrows msk) Hy Hg Ny Br) as Gy.
  rewrite (cell_unique _ _ _ _ _ Hg Gx Cx), (cell_unique _ _ _ _ _ Hg Gy Cy).
  rewrite !pyindex_in by (destruct Cx, Cy; assumption). reflexivity.
Qed.

(** C89. Every finite point of a mask that is not empty has an answer; no
    answer exists for NaN or for an empty mask. *)
Theorem C89_answer_exists :
  forall (x y : f64) (vx vy : R) (msk : img bool) (g : Z),
  f64_is x vx -> f64_is y vy -> 1 <= g ->
  0 <= nrows msk -> 0 <= ncols msk -> nrows msk * g <= 2 ^ 53 -> ncols msk * g <= 2 ^ 53 ->
  if (1 <=? nrows msk) && (1 <=? ncols msk)
  then exists kx ky, cell_covers g (ncols msk) kx vx /\ cell_covers g (nrows msk) ky vy /\
         check_point_in_bad_piff_model_mask x y msk g = Ok (px msk ky kx)
  else check_point_in_bad_piff_model_mask x y msk g = Raise IndexError.
Proof.
  intros x y vx vy msk g Hx Hy Hg R0 C0 Br Bc.
  destruct (Z.leb_spec 1 (nrows msk)) as [Ny|Ny]; [destruct (Z.leb_spec 1 (ncols msk)) as [Nx|Nx]|]; cbn [andb].
  - pose proof (clipped_floor_covers x vx g (ncols msk) Hx Hg Nx Bc) as Gx.
    pose proof (clipped_floor_covers y vy g (nrows msk) Hy Hg Ny Br) as Gy.
    eexists _, _. split; [exact Gx|]. split; [exact Gy|].
    now apply (C89_cell_of_point x y vx vy).
  - unfold check_point_in_bad_piff_model_mask.
    replace (ncols msk) with 0 by lia. generalize (clipped_floor (fdiv x (fofZ g)) 0). intros k.
    replace (pyindex 0 k) with (@None Z).
    + now destruct (pyindex (nrows msk) _).
    + unfold pyindex. destruct (Z.leb_spec 0 k), (Z.ltb_spec k 0), (Z.leb_spec 0 (0 + k)); cbn; (reflexivity || lia).
  - unfold check_point_in_bad_piff_model_mask.
    replace (nrows msk) with 0 by lia. generalize (clipped_floor (fdiv y (fofZ g)) 0). intros k.
    replace (pyindex 0 k) with (@None Z); [reflexivity|].
    unfold pyindex. destruct (Z.leb_spec 0 k), (Z.ltb_spec k 0), (Z.leb_spec 0 (0 + k)); cbn; (reflexivity || lia).
Qed.

(** C89. NaN raises IndexError, in either coordinate; an infinite coordinate
    is answered like every point beyond the edge on its side. *)
Theorem C89_not_a_number :
  forall (x y : f64) (msk : img bool) (g : Z),
  0 <= nrows msk < 2 ^ 63 -> 0 <= ncols msk < 2 ^ 63 -> 1 <= g ->
  x = S754_nan \/ y = S754_nan ->
  check_point_in_bad_piff_model_mask x y msk g = Raise IndexError.
Proof.
  intros x y msk g Hr Hc Hg H.
  assert (P : forall n, 0 <= n < 2 ^ 63 -> pyindex n (- 2 ^ 63) = None).
  { intros n Hn. unfold pyindex. destruct (Z.leb_spec 0 (- 2 ^ 63)); [lia|].
    destruct (Z.leb_spec 0 (n + - 2 ^ 63)); [lia|]. now rewrite andb_false_r. }
  assert (N : forall n, clipped_floor (fdiv (F := f64) S754_nan (fofZ g)) n = - 2 ^ 63) by reflexivity.
  unfold check_point_in_bad_piff_model_mask. destruct H as [-> | ->]; rewrite N, P by assumption.
  - now destruct (pyindex (nrows msk) _).
  - reflexivity.
Qed.

Theorem C89_infinite_points :
  forall (neg : bool) (x y : f64) (vy : R) (msk : img bool) (g ky : Z),
  x = S754_infinity neg -> f64_is y vy -> 1 <= g -> 1 <= ncols msk ->
  nrows msk * g <= 2 ^ 53 -> ncols msk * g <= 2 ^ 53 -> cell_covers g (nrows msk) ky vy ->
  check_point_in_bad_piff_model_mask x y msk g
    = Ok (px msk ky (if neg then 0 else ncols msk - 1)) /\
  check_point_in_bad_piff_model_mask y x (mkimg (ncols msk) (nrows msk) (fun r c => px msk c r)) g
    = Ok (px msk ky (if neg then 0 else ncols msk - 1)).
Proof.
  intros neg x y vy msk g ky -> Hy Hg Nx Br Bc Cy.
  assert (Ny : 1 <= nrows msk) by (destruct Cy; lia).
  pose proof (clipped_floor_covers y vy g (nrows msk) Hy Hg Ny Br) as Gy.
  assert (Q : clipped_floor (fdiv (F := f64) (S754_infinity neg) (fofZ g)) (ncols msk)
              = if neg then 0 else ncols msk - 1).
  { assert (E : exists s m e, f64_ofZ g = S754_finite s m e /\ s = false).
    { pose proof (f64_ofZ_is g ltac:(nia)) as I.
      assert (G1 : (1 <= IZR g)%R) by (apply IZR_le; lia).
      destruct I as (I1 & I2 & I3). destruct (f64_ofZ g) as [s|s| |s m e]; try discriminate I2.
      - cbn in I3. lra.
      - exists s, m, e. split; [reflexivity|]. rewrite f64_val_finite in I3.
        destruct s; [|reflexivity].
        change (IZR (Z.neg m) * Flocq.Core.Raux.bpow Flocq.Core.Zaux.radix2 e = IZR g)%R in I3.
        pose proof (Flocq.Core.Raux.bpow_gt_0 Flocq.Core.Zaux.radix2 e).
        assert (IZR (Z.neg m) <= -1)%R by (apply IZR_le; lia). nra. }
    destruct E as (s & m & e & E & ->).
    change (@fdiv f64 F64Ops) with (SFdiv 53 1024). change (@fofZ f64 F64Ops) with f64_ofZ. rewrite E.
    destruct neg.
    - change (Z.min 0 (ncols msk - 1) = 0). lia.
    - reflexivity. }
  unfold check_point_in_bad_piff_model_mask. cbn [nrows ncols px].
  rewrite Q. change (@fdiv f64 F64Ops) with (SFdiv 53 1024). change (@fofZ f64 F64Ops) with f64_ofZ.
  rewrite (cell_unique _ _ _ _ _ Hg Gy Cy).
  rewrite (pyindex_in (ncols msk)) by (destruct neg; lia).
  rewrite (pyindex_in (nrows msk)) by (destruct Cy; assumption). split; reflexivity.
Qed.

(** The 128 pixel cells of a 2048 by 4096 detector, at the points of the unit
    test and at the largest double below a cell boundary. *)
Example C89_example :
  let msk := mkimg 32 16 (fun r c => (r =? 1) && (c =? 1)) in
  cell_covers 128 (ncols msk) 1 145 /\ cell_covers 128 (nrows msk) 1 200 /\
  check_point_in_bad_piff_model_mask (F := f64) (f64_ofZ 145) (f64_ofZ 200) msk 128 = Ok true /\
  check_point_in_bad_piff_model_mask (F := f64) (f64_ofZ (-10)) (f64_ofZ 45454) msk 128 = Ok false /\
  check_point_in_bad_piff_model_mask (F := f64)
    (SFpred 53 1024 (f64_ofZ 256)) (f64_ofZ 200) msk 128 = Ok true /\
  check_point_in_bad_piff_model_mask (F := f64) (f64_ofZ 256) (f64_ofZ 200) msk 128 = Ok false.
Proof.
  cbv zeta. cbn [nrows ncols].
  split; [unfold cell_covers; split; [lia|];
          change (1 * 128) with 128; change ((1 + 1) * 128) with 256; split; right; lra|].
  split; [unfold cell_covers; split; [lia|];
          change (1 * 128) with 128; change ((1 + 1) * 128) with 256; split; right; lra|].
  vm_compute. repeat split.
Qed.

(** ** C90 *)

(** C90. The header that galsim gets has upper case names only, each once, and
    each has the value of the last named card with that name. *)
Theorem C90_header_contents :
  forall (V : Type) (cards : list (option string * V)),
  let header := upper_header cards in
  NoDup (dkeys header) /\
  (forall name, In name (dkeys header) -> upper name = name) /\
  (forall name, In name (dkeys header) <-> exists k v, In (Some k, v) cards /\ upper k = name) /\
  (forall name, dget header name = last_named upper cards name).
Proof.
  intros V cards header.
  assert (G : forall name, dget header name = last_named upper cards name).
  { intros name. unfold header, upper_header. rewrite upper_header_get.
    now destruct (last_named upper cards name). }
  assert (I : forall name, In name (dkeys header) <-> exists k v, In (Some k, v) cards /\ upper k = name).
  { intros name. rewrite <- last_named_some, <- G.
    destruct (dget header name) eqn:E.
    - split; [discriminate|]. intros _.
      destruct (in_dec String.string_dec name (dkeys header)) as [|N]; [assumption|].
      apply LoadInfoProofs.dget_In in N. congruence.
    - apply LoadInfoProofs.dget_In in E. tauto. }
  split; [apply upper_header_nodup|]. split; [|split; assumption].
  intros name H. apply I in H as (k & v & _ & <-). apply upper_upper.
Qed.

(** C90. A WCS is returned only if it has the class that the caller relies on
    and galsim made it from a header with these contents; the only other
    outcomes are galsim's exception and AssertionError for another class. *)
Theorem C90_result :
  forall (V W : Type) (fits_wcs : dict V -> result W) (is_gs : W -> bool) cards,
  exists header, (forall name, dget header name = last_named upper cards name) /\
    NoDup (dkeys header) /\
    match get_gs_fits_wcs_from_dict fits_wcs is_gs cards with
    | Ok w => fits_wcs header = Ok w /\ is_gs w = true
    | Raise e => fits_wcs header = Raise e \/
                 (e = AssertionError /\ exists w, fits_wcs header = Ok w /\ is_gs w = false)
    end.
Proof.
  intros V W f g cards. exists (upper_header cards).
  destruct (C90_header_contents V cards) as (N & _ & _ & G).
  split; [exact G|]. split; [exact N|].
  unfold get_gs_fits_wcs_from_dict. destruct (f (upper_header cards)) as [w|e] eqn:E; cbn [bind].
  - destruct (g w) eqn:Eg; [auto|]. right. split; [reflexivity|]. exists w. auto.
  - now left.
Qed.

(** C90. The cases of the letters and cards without a name do not matter. *)
Theorem C90_spelling_is_irrelevant :
  forall (V W : Type) (fits_wcs : dict V -> result W) (is_gs : W -> bool) cards cards',
  Forall2 (same_card upper)
    (filter (fun c => match fst c with None => false | Some _ => true end) cards)
    (filter (fun c => match fst c with None => false | Some _ => true end) cards') ->
  get_gs_fits_wcs_from_dict fits_wcs is_gs cards = get_gs_fits_wcs_from_dict fits_wcs is_gs cards'.
Proof.
  intros V W f g cards cards' H. unfold get_gs_fits_wcs_from_dict.
  rewrite (upper_header_filter cards), (upper_header_filter cards').
  now rewrite (upper_header_same _ _ H).
Qed.

(** C90. A header whose names are distinct and in upper case is passed on as it is. *)
Theorem C90_upper_case_headers_unchanged :
  forall (V : Type) (h : dict V),
  NoDup (dkeys h) -> (forall name, In name (dkeys h) -> upper name = name) ->
  upper_header (map (fun kv => (Some (fst kv), snd kv)) h) = h.
Proof. intros V h N U. exact (upper_header_id h N U). Qed.

(** A header as esutil writes it (lower case), with a nameless card and a
    repeated name. *)
Example C90_example :
  let cards := [(Some "crpix1", 5); (None, 7); (Some "Crval1", 10); (Some "CRPIX1", 6)]%string in
  upper_header cards = [("CRPIX1", 6); ("CRVAL1", 10)]%string /\
  Forall2 (same_card upper)
    (filter (fun c => match fst c with None => false | Some _ => true end) cards)
    (filter (fun c => match fst c with None => false | Some _ => true end)
       [(Some "CRPIX1", 5); (Some "CRVAL1", 10); (None, 3); (Some "crpix1", 6)]%string) /\
  get_gs_fits_wcs_from_dict (fun h => Ok (dget h "CRPIX1"%string))
    (fun w => match w with Some _ => true | None => false end) cards = Ok (Some 6) /\
  get_gs_fits_wcs_from_dict (fun h => Ok (dget h "CRPIX2"%string))
    (fun w => match w with Some _ => true | None => false end) cards = Raise AssertionError.
Proof. cbv. repeat split; repeat constructor. Qed.

Print Assumptions C89_cell_of_point.
Print Assumptions C89_answer_exists.
Print Assumptions C89_not_a_number.
Print Assumptions C89_infinite_points.
Print Assumptions C90_header_contents.
Print Assumptions C90_result.
Print Assumptions C90_spelling_is_irrelevant.
Print Assumptions C90_upper_case_headers_unchanged.
