(** Division of a PSF stamp by its sum, in double arithmetic. *)
From Coq Require Import ZArith List Lia Reals Lra SpecFloat.
From Flocq Require Import Core BinarySingleNaN.
From Coq Require Import List.
From Verif Require Import Lib.Base Lib.Floats Model.PsfImage Spec.FloatSpec Spec.CoaddSpec Spec.PsfSpec
  Proofs.BaseFacts Proofs.SliceInputsProofs Proofs.PsfProofs Proofs.SliceBoundsF64 Proofs.PsfF64 Proofs.F64Facts Proofs.RoundSum Proofs.CoaddF64.
Import ListNotations.
Open Scope R_scope.

Lemma rsum_total vs : rsum vs = total vs.
Proof. reflexivity. Qed.

Lemma asum_total vs : asum vs = total (map Rabs vs).
Proof. reflexivity. Qed.

Lemma asum_bound vs B : 0 <= B -> Forall (fun v => Rabs v <= B) vs -> total (map Rabs vs) <= INR (length vs) * B.
Proof.
  intros HB. induction 1 as [|v vs H _ IH]; [cbn; lra|].
  change (total (map Rabs (v :: vs))) with (Rabs v + total (map Rabs vs)).
  cbn [length]. rewrite S_INR. lra.
Qed.

Lemma total_le_asum vs : Rabs (total vs) <= total (map Rabs vs).
Proof.
  induction vs as [|v vs IH]; [cbn; rewrite Rabs_R0; lra|].
  change (total (v :: vs)) with (v + total vs). change (total (map Rabs (v :: vs))) with (Rabs v + total (map Rabs vs)).
  pose proof (Rabs_triang v (total vs)). lra.
Qed.

Lemma asum_member vs v : In v vs -> Rabs v <= total (map Rabs vs).
Proof.
  assert (P : forall l, 0 <= total (map Rabs l)).
  { induction l as [|w l IH]; [cbn; lra|]. change (total (map Rabs (w :: l))) with (Rabs w + total (map Rabs l)).
    pose proof (Rabs_pos w). lra. }
  induction vs as [|w vs IH]; [intros []|]. intros [<-|H];
    change (total (map Rabs (w :: vs))) with (Rabs w + total (map Rabs vs)).
  - pose proof (P vs). lra.
  - pose proof (IH H). pose proof (Rabs_pos w). lra.
Qed.

Lemma F2_impl {A B} (P Q : A -> B -> Prop) l l' : (forall a b, P a b -> Q a b) -> Forall2 P l l' -> Forall2 Q l l'.
Proof. intros H. induction 1; constructor; auto. Qed.

Lemma quotients (s : f64) S xs vs : f64_is s S -> S <> 0 -> Forall2 f64_is xs vs ->
  Forall (fun v => Rabs (v / S) <= bpow radix2 1000) vs ->
  exists ps, Forall2 f64_is (map (fun x => fdiv x s) xs) ps /\
    Forall2 (fun p v => Rabs (p - v / S) <= uro * Rabs (v / S) + bpow radix2 (-1075)) ps vs /\
    Rabs (total ps - total vs / S) <= uro * (total (map Rabs vs) / Rabs S) + INR (length vs) * bpow radix2 (-1075).
Proof.
  intros Hs HS HF HB. revert HB. induction HF as [|x v xs vs Hx _ IH]; intros HB.
  - exists []. split; [constructor|]. split; [constructor|]. cbn.
    replace (0 - 0 / S) with 0 by (field; exact HS). rewrite Rabs_R0. unfold Rdiv. lra.
  - inversion HB as [|? ? B0 B1]; subst. destruct (IH B1) as (ps & P1 & P2 & P3). clear IH.
    exists (rnd (v / S) :: ps).
    destruct (rnd_error_gen (v / S)) as (e & h & He & Hh & E).
    pose proof err_le_uro as Eu. pose proof uro_pos as U.
    assert (Q : Rabs (rnd (v / S) - v / S) <= uro * Rabs (v / S) + bpow radix2 (-1075)).
    { rewrite E. replace (v / S * (1 + e) + h - v / S) with (e * (v / S) + h) by ring.
      eapply Rle_trans; [apply Rabs_triang|]. rewrite Rabs_mult.
      apply Rplus_le_compat; [|exact Hh]. apply Rmult_le_compat_r; [apply Rabs_pos|lra]. }
    split; [|split].
    + constructor; [|exact P1]. apply div_is; assumption.
    + constructor; [exact Q|exact P2].
    + change (total (rnd (v / S) :: ps)) with (rnd (v / S) + total ps).
      change (total (v :: vs)) with (v + total vs).
      change (total (map Rabs (v :: vs))) with (Rabs v + total (map Rabs vs)).
      replace (rnd (v / S) + total ps - (v + total vs) / S)
        with ((rnd (v / S) - v / S) + (total ps - total vs / S)) by (field; exact HS).
      eapply Rle_trans; [apply Rabs_triang|]. cbn [length]. rewrite S_INR.
      unfold Rdiv in Q at 3. rewrite Rabs_mult, Rabs_inv in Q.
      unfold Rdiv in *. rewrite Rmult_plus_distr_r. lra.
Qed.

Lemma sum_normalised xs vs : Forall2 f64_is xs vs -> ordinary_stamp vs ->
  let n := INR (length vs) in
  let kappa := total (map Rabs vs) / Rabs (total vs) in
  exists ps, Forall2 f64_is (map (fun x => fdiv x (fsum xs)) xs) ps /\
    Rabs (total ps - 1) <= (2 * n + 2) * bpow radix2 (-52) * kappa /\
    Forall2 (fun p v => Rabs (p - v / total vs) <=
      (2 * n + 1) * bpow radix2 (-52) * kappa * Rabs (v / total vs) + bpow radix2 (-1074)) ps vs.
Proof.
  intros HF (HB & Hn & HT & Hk) n kappa.
  pose proof (F2_len _ _ _ HF) as L.
  set (T := total vs) in *. set (A := total (map Rabs vs)) in *.
  pose proof (small_count _ Hn) as Hc. fold n in Hc, Hk.
  assert (N0 : 0 <= n) by apply pos_INR.
  assert (TA : Rabs T <= A) by apply total_le_asum.
  assert (T0 : 0 < Rabs T) by (pose proof (bpow_gt_0 radix2 (-300)); lra).
  assert (A999 : A <= bpow radix2 999).
  { pose proof (asum_bound vs _ (bpow_ge_0 radix2 300) HB) as AB. fold A n in AB.
    apply Rle_trans with (1 := AB). apply Rle_trans with (bpow radix2 40 * bpow radix2 300).
    - apply Rmult_le_compat_r; [apply bpow_ge_0|]. unfold n. rewrite INR_IZR_INZ.
      change (bpow radix2 40) with (IZR (2 ^ 40)). now apply IZR_le.
    - rewrite <- bpow_plus. apply bpow_le. lia. }
  assert (E52 : bpow radix2 (-52) = 2 * uro).
  { unfold uro. change (-52)%Z with (1 + -53)%Z. rewrite bpow_plus. reflexivity. }
  assert (E51 : bpow radix2 (-51) = 4 * uro).
  { unfold uro. change (-51)%Z with (2 + -53)%Z. rewrite bpow_plus. reflexivity. }
  pose proof uro_pos as U. pose proof B13 as B13'.
  assert (U13 : uro <= / 16384).
  { unfold uro. apply Rle_trans with (bpow radix2 (-14)); [apply bpow_le; lia|]. right. cbn. lra. }
  destruct (fsum_error xs vs HF) as (S & HS & ES).
  { rewrite L. fold n. lra. }
  { rewrite asum_total. exact A999. }
  rewrite rsum_total, asum_total, L in ES. fold T A n in ES. rewrite E52 in *. rewrite E51 in Hk.
  assert (ST : Rabs (S - T) <= Rabs T / 2) by lra.
  assert (S2 : Rabs T / 2 <= Rabs S).
  { replace T with (S - (S - T)) at 1 by ring.
    assert (Rabs (S - (S - T)) <= Rabs S + Rabs (S - T)).
    { eapply Rle_trans; [apply Rabs_triang|]. rewrite Rabs_Ropp. lra. }
    replace (S - (S - T)) with T in * by ring. lra. }
  assert (S0 : S <> 0) by (intros ->; rewrite Rabs_R0 in S2; lra).
  assert (TN : T <> 0) by (intros HT0; rewrite HT0, Rabs_R0 in T0; lra).
  assert (Sp : 0 < Rabs S) by now apply Rabs_pos_lt.
  assert (IS : / Rabs S <= 2 * / Rabs T).
  { replace (2 * / Rabs T) with (/ (Rabs T / 2)) by (field; lra). apply Rinv_le; lra. }
  pose proof (Rinv_0_lt_compat _ T0) as IT0. pose proof (Rinv_0_lt_compat _ Sp) as IS0.
  destruct (quotients (fsum xs) S xs vs HS S0 HF) as (ps & P1 & P2 & P3).
  { apply Forall_forall. intros v Hv. rewrite Forall_forall in HB. pose proof (HB v Hv) as Bv.
    unfold Rdiv. rewrite Rabs_mult, Rabs_inv.
    apply Rle_trans with (bpow radix2 300 * bpow radix2 301).
    - apply Rmult_le_compat; [apply Rabs_pos|lra|exact Bv|].
      apply Rle_trans with (1 := IS). change (bpow radix2 301) with (bpow radix2 (1 + 300)). rewrite bpow_plus.
      change (bpow radix2 1) with 2. apply Rmult_le_compat_l; [lra|].
      change (bpow radix2 300) with (bpow radix2 (- -300)). rewrite bpow_opp. apply Rinv_le; [apply bpow_gt_0|exact HT].
    - rewrite <- bpow_plus. apply bpow_le. lia. }
  assert (K1 : 1 <= kappa).
  { unfold kappa. apply Rmult_le_reg_r with (Rabs T); [exact T0|].
    unfold Rdiv. rewrite Rmult_assoc, Rinv_l by lra. lra. }
  assert (KS : A / Rabs S <= 2 * kappa).
  { unfold kappa, Rdiv. replace (2 * (A * / Rabs T)) with (A * (2 * / Rabs T)) by ring.
    apply Rmult_le_compat_l; lra. }
  assert (Small : n * bpow radix2 (-1075) <= uro).
  { apply Rle_trans with (bpow radix2 40 * bpow radix2 (-1075)).
    - apply Rmult_le_compat_r; [apply bpow_ge_0|]. unfold n. rewrite INR_IZR_INZ.
      change (bpow radix2 40) with (IZR (2 ^ 40)). now apply IZR_le.
    - rewrite <- bpow_plus. apply bpow_le. lia. }
  (* S against T *)
  assert (RS : Rabs (S - T) * / Rabs S <= 4 * (n * uro) * kappa).
  { apply Rle_trans with (n * (2 * uro) * A * / Rabs S); [apply Rmult_le_compat_r; lra|].
    unfold Rdiv in KS. rewrite Rmult_assoc.
    replace (4 * (n * uro) * kappa) with (n * (2 * uro) * (2 * kappa)) by ring.
    apply Rmult_le_compat_l; [|exact KS]. apply Rmult_le_pos; lra. }
  exists ps. split; [exact P1|]. split.
  - replace (total ps - 1) with ((total ps - T / S) + (T - S) / S) by (field; exact S0).
    eapply Rle_trans; [apply Rabs_triang|]. unfold Rdiv at 2. rewrite Rabs_mult, Rabs_inv.
    rewrite (Rabs_minus_sym T S).
    fold T A n in P3. assert (uro * (A / Rabs S) <= uro * (2 * kappa)) by (apply Rmult_le_compat_l; lra).
    assert (uro * 1 <= uro * kappa) by (apply Rmult_le_compat_l; lra). lra.
  - assert (E74 : bpow radix2 (-1074) = 2 * bpow radix2 (-1075)).
    { change (-1074)%Z with (1 + -1075)%Z. rewrite bpow_plus. reflexivity. }
    rewrite E74. pose proof (bpow_gt_0 radix2 (-1075)) as B75.
    eapply F2_impl; [|exact P2]. intros p v Hp. cbn beta in *.
    replace (p - v / T) with ((p - v / S) + v / T * ((T - S) / S)) by (field; split; assumption).
    eapply Rle_trans; [apply Rabs_triang|]. rewrite (Rabs_mult (v / T)).
    replace (Rabs ((T - S) / S)) with (Rabs (S - T) * / Rabs S)
      by (unfold Rdiv; rewrite (Rabs_mult (T - S)), Rabs_inv, (Rabs_minus_sym T S); reflexivity).
    set (w := Rabs (v / T)) in *. assert (W0 : 0 <= w) by apply Rabs_pos.
    assert (VS : Rabs (v / S) <= 2 * w).
    { unfold w, Rdiv. rewrite !Rabs_mult, !Rabs_inv.
      replace (2 * (Rabs v * / Rabs T)) with (Rabs v * (2 * / Rabs T)) by ring.
      apply Rmult_le_compat_l; [apply Rabs_pos|exact IS]. }
    assert (uro * Rabs (v / S) <= uro * (2 * w)) by (apply Rmult_le_compat_l; lra).
    assert (w * (Rabs (S - T) * / Rabs S) <= w * (4 * (n * uro) * kappa)) by (apply Rmult_le_compat_l; lra).
    assert (uro * w * 1 <= uro * w * kappa) by (apply Rmult_le_compat_l; [apply Rmult_le_pos; lra|lra]).
    lra.
Qed.

Lemma normalise_f64 (raw : img f64) : divided_by_sum raw (normalise raw).
Proof.
  split; [reflexivity|]. split; [reflexivity|]. intros vs HF Ho n kappa.
  destruct (sum_normalised (ravel raw) vs HF Ho) as (ps & P1 & P2 & P3).
  exists ps. split; [|split; [exact P2|exact P3]].
  assert (Er : ravel (normalise raw) = map (fun x => fdiv x (fsum (ravel raw))) (ravel raw)).
  { unfold normalise, ravel, imap. cbn [nrows ncols px]. rewrite map_map. reflexivity. }
  rewrite Er. exact P1.
Qed.

(** ** What is drawn *)
Lemma rnd_near z b : Rabs z <= bpow radix2 b -> (-900 <= b)%Z -> Rabs (rnd z - z) <= bpow radix2 (b - 52).
Proof.
  intros Hz Hb. destruct (rnd_error_gen z) as (e & h & He & Hh & ->). pose proof err_le_uro as Eu. pose proof uro_pos.
  replace (z * (1 + e) + h - z) with (e * z + h) by ring.
  eapply Rle_trans; [apply Rabs_triang|]. rewrite Rabs_mult.
  assert (E : bpow radix2 (b - 52) = 2 * (uro * bpow radix2 b)).
  { unfold uro. rewrite <- bpow_plus. change 2 with (bpow radix2 1). rewrite <- bpow_plus. f_equal. lia. }
  assert (M : Rabs e * Rabs z <= uro * bpow radix2 b) by (apply Rmult_le_compat; try apply Rabs_pos; lra).
  assert (K : bpow radix2 (-1075) <= uro * bpow radix2 b).
  { unfold uro. rewrite <- bpow_plus. apply bpow_le. lia. }
  lra.
Qed.

Lemma offset_near (x : f64) vx k : f64_is x vx -> Rabs vx <= bpow radix2 30 ->
  Rabs (vx - IZR k) <= / 2 + slack -> (Z.abs k <= 2 ^ 31)%Z ->
  near_value (bpow radix2 (-52)) (fsub x (fofZ k)) (vx - IZR k).
Proof.
  intros Hx Bx Nk Ak.
  assert (S0 : slack <= / 2).
  { unfold slack. change (/ 2) with (bpow radix2 (-1)). apply bpow_le. lia. }
  exists (rnd (vx - IZR k)). split.
  - apply (f64_sub_is x (f64_ofZ k)); [exact Hx|apply f64_ofZ_is; lia|].
    apply Rle_trans with (bpow radix2 0); [cbn; lra|apply bpow_le; lia].
  - apply (rnd_near _ 0); [|lia]. cbn [bpow]. lra.
Qed.

Lemma moved_near (x : f64) vx off : f64_is x vx -> Rabs vx <= bpow radix2 30 -> (Z.abs off <= 2 ^ 30)%Z ->
  near_value (bpow radix2 (-20)) (fadd x (fofZ off)) (vx + IZR off).
Proof.
  intros Hx Bx Ho.
  assert (B : Rabs (vx + IZR off) <= bpow radix2 31).
  { eapply Rle_trans; [apply Rabs_triang|]. rewrite <- abs_IZR. apply IZR_le in Ho.
    change (bpow radix2 31) with (bpow radix2 (1 + 30)). rewrite bpow_plus. change (bpow radix2 1) with 2.
    change (IZR (2 ^ 30)) with (bpow radix2 30) in Ho. lra. }
  exists (rnd (vx + IZR off)). split.
  - apply (f64_add_is x (f64_ofZ off)); [exact Hx|apply f64_ofZ_is; lia|].
    eapply Rle_trans; [exact B|]. apply bpow_le. lia.
  - eapply Rle_trans; [apply (rnd_near _ 31); [exact B|lia]|]. apply bpow_le. lia.
Qed.

Lemma psf_image_f64 (draw : draw_request (F := f64) -> result (img f64)) kind gn off x y vx vy a :
  f64_is x vx -> f64_is y vy -> Rabs vx <= bpow radix2 30 -> Rabs vy <= bpow radix2 30 ->
  (Z.abs off <= 2 ^ 30)%Z ->
  get_psf_image draw kind gn off x y = Ok a ->
  exists q raw, right_request_double kind gn off vx vy q /\ draw q = Ok raw /\ divided_by_sum raw a.
Proof.
  intros Hx Hy Bx By Ho H.
  destruct (floor_half_f64 x vx Hx Bx) as (kx & Ex & Ax & Nx).
  destruct (floor_half_f64 y vy Hy By) as (ky & Ey & Ay & Ny).
  unfold get_psf_image in H. rewrite Ex, Ey in H. cbv zeta in H.
  apply bind_ok in H as (raw & Hd & H).
  destruct (negb _); [discriminate|]. destruct (negb _); [discriminate|]. apply Ok_inj in H as <-.
  destruct (galsim_dim gn) as (G1 & G2 & G3).
  destruct kind; [| |rewrite (stamp_bounds_floor x y kx ky PIFF_STAMP_SIZE Ex Ey Ax Ay) in Hd by (unfold PIFF_STAMP_SIZE; lia);
    change (PIFF_STAMP_SIZE mod 2 =? 1)%Z with true in Hd; cbn [bind] in Hd|discriminate];
    (eexists; exists raw; split; [|split; [exact Hd|apply normalise_f64]]);
    exists kx, ky; cbn [dr_dx dr_dy dr_x dr_y dr_n dr_xmin dr_ymin];
    (split; [exact Nx|]); (split; [exact Ny|]);
    (split; [apply offset_near; assumption|]); (split; [apply offset_near; assumption|]).
  - auto.
  - split; [apply moved_near; assumption|]. split; [apply moved_near; assumption|reflexivity].
  - split; [apply moved_near; assumption|]. split; [apply moved_near; assumption|].
    split; [reflexivity|]. change ((PIFF_STAMP_SIZE - 1) / 2)%Z with 12%Z. split; lia.
Qed.
