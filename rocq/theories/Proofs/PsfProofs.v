From Coq Require Import ZArith List Bool Reals Lia Lra.
From Flocq Require Import Core.Raux.
From Verif Require Import Lib.Base Lib.Floats Model.Lanczos Model.SeImage Model.PsfImage Model.Resample
  Spec.SeImageSpec Spec.CoaddSpec Spec.ResampleSpec Spec.PsfSpec Proofs.BaseFacts
  Proofs.SliceInputsProofs Proofs.LanczosProofs Proofs.CoaddProofs Proofs.ResampleProofs.
Import ListNotations.
Open Scope Z_scope.

Lemma nearest_floor_half (v : R) : nearest v (Zfloor (v + 1 / 2)).
Proof. exact (floor_half v). Qed.

Lemma nearest_eq (v : R) i : nearest v i -> Zfloor (v + 1 / 2) = i.
Proof. intros [H1 H2]. apply Zfloor_imp. rewrite plus_IZR. lra. Qed.

Lemma half_odd dim : dim mod 2 = 1 -> (IZR (dim - 1) / 2)%R = IZR ((dim - 1) / 2).
Proof.
  intros H. assert (E : dim - 1 = 2 * ((dim - 1) / 2)).
  { pose proof (Z.div_mod dim 2 ltac:(lia)). rewrite H in H0.
    replace (dim - 1) with (dim / 2 * 2) at 2 by lia. rewrite Z.div_mul by lia. lia. }
  rewrite E at 1. rewrite mult_IZR. lra.
Qed.

Lemma half_even dim k : dim mod 2 = 0 -> (IZR k - IZR (dim - 1) / 2)%R <> IZR (Ztrunc (IZR k - IZR (dim - 1) / 2)).
Proof.
  intros H E. set (t := Ztrunc _) in E.
  assert (E2 : IZR (2 * k - (dim - 1)) = IZR (2 * t)).
  { rewrite minus_IZR, !mult_IZR. lra. }
  apply eq_IZR in E2. pose proof (Z.div_mod dim 2 ltac:(lia)). lia.
Qed.

Lemma Reqb_true (x y : R) : x = y -> feqb x y = true.
Proof. intros ->. cbn [feqb ROps]. unfold Reqb. destruct (Req_EM_T y y); congruence. Qed.

Lemma Reqb_false (x y : R) : x <> y -> feqb x y = false.
Proof. intros H. cbn [feqb ROps]. unfold Reqb. destruct (Req_EM_T x y); congruence. Qed.

Lemma stamp_bounds_R (x y : R) dim :
  compute_psf_stamp_bounds x y dim =
  if dim mod 2 =? 1
  then Ok (Zfloor (x + 1 / 2) - (dim - 1) / 2, Zfloor (y + 1 / 2) - (dim - 1) / 2)
  else Raise AssertionError.
Proof.
  unfold compute_psf_stamp_bounds.
  change (@fadd R ROps x fhalf) with (x + (1 / 2))%R. change (@fadd R ROps y fhalf) with (y + (1 / 2))%R.
  cbn [ffloor ftrunc ROps].
  set (kx := Zfloor (x + 1 / 2)). set (ky := Zfloor (y + 1 / 2)).
  change (@fdiv R ROps (fofZ (dim - 1)) (fofZ 2)) with (IZR (dim - 1) / 2)%R.
  cbn [fsub fofZ ROps].
  destruct (Z.eqb_spec (dim mod 2) 1) as [E|E].
  - rewrite (half_odd dim E), <- !minus_IZR, !Ztrunc_IZR.
    rewrite !Reqb_true by reflexivity. reflexivity.
  - assert (E0 : dim mod 2 = 0) by (pose proof (Z.mod_pos_bound dim 2 ltac:(lia)); lia).
    rewrite (Reqb_false _ _ (half_even dim ky E0)). reflexivity.
Qed.

Lemma layout_R (col row : R) box off :
  build_coadd_psf_layout col row box off =
  if box mod 2 =? 1
  then Ok ((Zfloor (col + 1 / 2), Zfloor (row + 1 / 2)),
           (IZR (Zfloor (row + 1 / 2) - off - (box - 1) / 2),
            IZR (Zfloor (col + 1 / 2) - off - (box - 1) / 2)))
  else Raise AssertionError.
Proof.
  unfold build_coadd_psf_layout.
  change (@fadd R ROps col fhalf) with (col + (1 / 2))%R. change (@fadd R ROps row fhalf) with (row + (1 / 2))%R.
  cbn [ffloor ftrunc ROps].
  set (kx := Zfloor (col + 1 / 2)). set (ky := Zfloor (row + 1 / 2)).
  change (@fdiv R ROps (fofZ (box - 1)) (fofZ 2)) with (IZR (box - 1) / 2)%R.
  cbn [fsub fofZ ROps].
  destruct (Z.eqb_spec (box mod 2) 1) as [E|E].
  - rewrite (half_odd box E), !Ztrunc_IZR.
    rewrite Reqb_true by reflexivity. cbn [negb]. now rewrite <- !minus_IZR.
  - assert (E0 : box mod 2 = 0) by (pose proof (Z.mod_pos_bound box 2 ltac:(lia)); lia).
    rewrite Reqb_false; [reflexivity|].
    intros K. assert (E2 : IZR (2 * Ztrunc (IZR (box - 1) / 2)) = IZR (box - 1)).
    { rewrite mult_IZR. lra. }
    apply eq_IZR in E2. pose proof (Z.div_mod box 2 ltac:(lia)). lia.
Qed.

Lemma total_div (l : list R) s : total (map (fun v => (v / s)%R) l) = (total l / s)%R.
Proof.
  unfold total. induction l as [|x l IH]; cbn [map fold_right]; [unfold Rdiv; ring|].
  rewrite IH. unfold Rdiv. ring.
Qed.

Lemma ravel_imap {A B} (f : A -> B) (a : img A) : ravel (imap f a) = map f (ravel a).
Proof. unfold ravel. cbn [imap nrows ncols px]. rewrite map_map. reflexivity. Qed.

Lemma normalise_R (raw : img R) :
  normalised_of raw (normalise raw) /\
  (total (ravel raw) <> 0%R -> total (ravel (normalise raw)) = 1%R).
Proof.
  unfold normalise. rewrite R_fsum_total. split.
  - split; [reflexivity|]. split; [reflexivity|]. intros r c. reflexivity.
  - intros H. rewrite ravel_imap. cbn [fdiv ROps]. rewrite total_div. field. exact H.
Qed.

Section Draw.
Variable draw : draw_request (F := R) -> result (img R).

Definition the_request (kind : psf_kind) (gn off : Z) (x y : R) : draw_request (F := R) :=
  let kx := Zfloor (x + 1 / 2) in
  let ky := Zfloor (y + 1 / 2) in
  match kind with
  | Galsim => mkdraw x y (x - IZR kx)%R (y - IZR ky)%R (galsim_psf_dim gn) 0 0
  | PsfEx => mkdraw (x + IZR off)%R (y + IZR off)%R (x - IZR kx)%R (y - IZR ky)%R 33 0 0
  | Piff => mkdraw (x + IZR off)%R (y + IZR off)%R (x - IZR kx)%R (y - IZR ky)%R 25
              (kx - 12 + off) (ky - 12 + off)
  | UnknownPsf => mkdraw x y x y 0 0 0
  end.

Lemma get_psf_image_R kind gn off x y : kind <> UnknownPsf ->
  get_psf_image draw kind gn off x y =
  (raw <- draw (the_request kind gn off x y) ;;
   if negb (nrows raw =? ncols raw) then Raise AssertionError
   else if negb (nrows raw mod 2 =? 1) then Raise AssertionError else Ok (normalise raw)).
Proof.
  intros Hk. unfold get_psf_image.
  change (@fadd R ROps x fhalf) with (x + (1 / 2))%R. change (@fadd R ROps y fhalf) with (y + (1 / 2))%R.
  cbn [ffloor ROps]. unfold the_request. destruct kind; try congruence.
  - cbn [fsub fofZ ROps]. destruct (draw _); reflexivity.
  - cbn [fsub fadd fofZ ROps]. destruct (draw _); reflexivity.
  - unfold PIFF_STAMP_SIZE. rewrite stamp_bounds_R. cbn [bind Z.modulo Z.div_eucl].
    change (25 mod 2 =? 1) with true. change ((25 - 1) / 2) with 12. cbn [bind].
    cbn [fsub fadd fofZ ROps]. destruct (draw _); reflexivity.
Qed.

Lemma galsim_dim gn : galsim_psf_dim gn mod 2 = 1 /\ gn <= galsim_psf_dim gn / 5 <= gn + 1 /\
  galsim_psf_dim gn mod 5 = 0.
Proof.
  unfold galsim_psf_dim. set (k := if gn mod 2 =? 0 then gn + 1 else gn).
  assert (Hk : k mod 2 = 1 /\ gn <= k <= gn + 1).
  { unfold k. pose proof (Z.mod_pos_bound gn 2 ltac:(lia)) as Hb. destruct (Z.eqb_spec (gn mod 2) 0) as [E|E].
    - split; [|lia]. rewrite Z.add_mod, E by lia. reflexivity.
    - split; [lia|lia]. }
  split; [|split].
  - rewrite Z.mul_mod, (proj1 Hk) by lia. reflexivity.
  - rewrite Z.mul_comm, Z.div_mul by lia. exact (proj2 Hk).
  - rewrite Z.mul_comm, Z.mod_mul by lia. reflexivity.
Qed.

Lemma the_request_right kind gn off x y : kind <> UnknownPsf ->
  right_request kind gn off x y (the_request kind gn off x y).
Proof.
  intros Hk. exists (Zfloor (x + 1 / 2)), (Zfloor (y + 1 / 2)).
  split; [apply nearest_floor_half|]. split; [apply nearest_floor_half|].
  destruct kind; try congruence; cbn [the_request dr_dx dr_dy dr_x dr_y dr_n dr_xmin dr_ymin].
  - destruct (galsim_dim gn) as (G1 & G2 & G3). auto 10.
  - auto 10.
  - repeat split; lia.
Qed.
End Draw.

(** resample_psf in any arithmetic. *)
Section Rpsf.
Context {F : Type} {FO : FloatOps F}.
Variables (to_se : Z -> Z -> F * F) (area_se area_coadd : Z -> Z -> F).

Lemma resample_psf_spec st px0 py0 n dx dy out :
  resample_psf to_se area_se area_coadd st px0 py0 n dx dy = Ok out ->
  exists pf raw, st_psf st = Some pf /\
    nrows (pf_psf pf) = pf_box_size pf /\ ncols (pf_psf pf) = pf_box_size pf /\
    out = normalise raw /\ nrows raw = n /\ ncols raw = n /\
    forall r c, 0 <= r < n -> 0 <= c < n ->
    exists v e,
      lanczos_point (brightness area_se (pf_psf pf) (pf_y_start pf) (pf_x_start pf)) 3
        (fadd (fst (position to_se py0 px0 (pf_y_start pf) (pf_x_start pf) r c)) dy)
        (fadd (snd (position to_se py0 px0 (pf_y_start pf) (pf_x_start pf) r c)) dx) = Ok (v, e) /\
      px raw r c = fmul (if e then fzero else v) (area_coadd (c + px0) (r + py0)).
Proof.
  unfold resample_psf. destruct (st_psf st) as [pf|] eqn:Ep; [|discriminate]. intros H.
  rewrite !map_map in H.
  apply bind_ok in H as (im & Hd & H). apply bind_ok in H as ([vs es] & Hl & H). apply Ok_inj in H as <-.
  exists pf. eexists. split; [reflexivity|].
  unfold div_area in Hd. destruct (same_shape _ _) eqn:Hs; [|discriminate]. apply Ok_inj in Hd as <-.
  unfold same_shape in Hs. cbn [nrows ncols] in Hs. apply andb_true_iff in Hs as [Hs1 Hs2].
  apply Z.eqb_eq in Hs1, Hs2. split; [exact Hs1|]. split; [exact Hs2|]. split; [reflexivity|].
  split; [reflexivity|]. split; [reflexivity|].
  unfold lanczos_resample in Hl. cbn [Z.leb Z.compare Pos.compare Pos.compare_cont] in Hl.
  apply loop_pointwise in Hl; [|now rewrite !map_length]. destruct Hl as (L1 & L2 & Hp).
  intros r c Hr Hc. pose proof (allpix_at n n r c Hr Hc) as Hn.
  destruct (Hp (Z.to_nat (r * n + c))
              (fadd (fst (position to_se py0 px0 (pf_y_start pf) (pf_x_start pf) r c)) dy)
              (fadd (snd (position to_se py0 px0 (pf_y_start pf) (pf_x_start pf) r c)) dx))
    as (v & e & E1 & E2 & E3).
  { rewrite nth_error_map, Hn. reflexivity. }
  { rewrite nth_error_map, Hn. reflexivity. }
  exists v, e. split.
  - rewrite <- E3. apply lanczos_loop_ext; reflexivity.
  - apply reshape_px. apply map2_nth;
      [exact (map2_nth (fun v (e : bool) => if e then fzero else v) vs es _ v e E1 E2)|].
    rewrite nth_error_map, Hn. reflexivity.
Qed.
End Rpsf.
