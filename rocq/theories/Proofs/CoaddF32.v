(** The coadd with arrays of single precision. *)
From Coq Require Import ZArith List Bool Lia Reals Lra SpecFloat.
From Flocq Require Import Core BinarySingleNaN.
From Coq Require Import List.
From Verif Require Import Lib.Base Lib.Floats Lib.Float32 Spec.FloatSpec Spec.CoaddSpec Spec.Float32Spec
  Model.Coadd Model.CoaddF4
  Proofs.F64Facts Proofs.RoundSum Proofs.BaseFacts Proofs.SliceInputsProofs Proofs.CoaddProofs Proofs.CoaddF64 Proofs.Float32Facts.
Import ListNotations.

Section Gen.
Context {F : Type} `{FO : FloatOps F} {S : Type}.
Variable store : F -> F.
Variable inv : list F -> F.
Open Scope Z_scope.

(** The same arithmetic, but sums are stored. *)
Definition stored_ops : FloatOps F := {|
  fofZ := fofZ; fadd := fun x y => store (fadd x y); fsub := fsub; fmul := fmul; fdiv := fdiv;
  fabs := fabs; fsqrt := fsqrt; fleb := fleb; fltb := fltb; feqb := feqb; ffinite := ffinite;
  fnan := fnan; ffloor := ffloor; ftrunc := ftrunc |}.

Lemma add_noises_stored (acc data : list (img F)) w :
  add_noises_as store acc data w = @add_noises F stored_ops acc data w.
Proof.
  reflexivity.
Qed.

Lemma coadd_loop_stored (resample : S -> result (resampled (F := F))) l : forall acc,
  coadd_loop_as store resample l acc = @coadd_loop F stored_ops S resample l acc.
Proof.
  induction l as [|[s w] l IH]; intros acc; cbn [coadd_loop_as coadd_loop]; [reflexivity|].
  destruct (resample s) as [res|]; [|reflexivity]. cbn [bind]. unfold coadd_step_as, coadd_step.
  rewrite add_noises_stored. destruct (add_noises _ _ w) as [ns|]; [|reflexivity]. cbn [bind].
  now rewrite IH.
Qed.

Theorem coadd_as_spec (resample : S -> result (resampled (F := F))) box pbox slices weights nextra
  out weight datas :
  coadd_slice_inputs_as store inv resample box pbox slices weights nextra = Ok (out, weight, datas) ->
  let ws := map (fun w => fdiv w (fsum weights)) weights in
  length slices = length weights /\ slices <> [] /\
  Forall2 (fun s res => resample s = Ok res) slices datas /\
  nrows (co_image out) = box /\ ncols (co_image out) = box /\
  nrows (co_bmask out) = box /\ ncols (co_bmask out) = box /\
  nrows (co_ormask out) = box /\ ncols (co_ormask out) = box /\
  nrows (co_psf out) = pbox /\ ncols (co_psf out) = pbox /\
  nrows (co_mfrac out) = box /\ ncols (co_mfrac out) = box /\
  length (co_noises out) = Datatypes.S nextra /\
  Forall (fun res => (Datatypes.S nextra <= length (rs_noises res))%nat) datas /\
  nrows weight = box /\ ncols weight = box /\
  (exists n0, nth_error (co_noises out) 0 = Some n0 /\
     forall r c, px weight r c = store (inv (ravel n0))) /\
  forall r c,
    px (co_image out) r c = stored_sum store (combine (map (fun d => px (rs_image d) r c) datas) ws) /\
    px (co_psf out) r c =
      stored_sum store (combine (map (fun d => finite_part (px (rs_psf d) r c)) datas) ws) /\
    px (co_mfrac out) r c =
      stored_sum store (combine (map (fun d => unit_fraction (px (rs_interp_frac d) r c)) datas) ws) /\
    (forall k, Z.testbit (px (co_bmask out) r c) k = true <->
       exists d, In d datas /\ Z.testbit (px (rs_pmask d) r c) k = true) /\
    (forall k, Z.testbit (px (co_ormask out) r c) k = true <->
       exists d, In d datas /\ Z.testbit (px (rs_bmask d) r c) k = true) /\
    (forall i, (i < Datatypes.S nextra)%nat ->
       exists a ds, nth_error (co_noises out) i = Some a /\
         nrows a = box /\ ncols a = box /\
         Forall2 (fun d n => nth_error (rs_noises d) i = Some n) datas ds /\
         px a r c = stored_sum store (combine (map (fun n => px n r c) ds) ws)).
Proof.
  intros E ws. unfold coadd_slice_inputs_as in E. rewrite map_length in E.
  destruct (Nat.eqb (length slices) (length weights)) eqn:El; [|discriminate].
  apply Nat.eqb_eq in El. cbn [negb] in E.
  assert (Hne : slices <> []) by (destruct slices; [discriminate|congruence]).
  assert (E' : ('(out, datas) <- coadd_loop_as store resample (combine slices ws)
       (mkcoadd (full box box fzero) (full box box 0) (full box box 0)
          (repeat (full box box fzero) (Datatypes.S nextra)) (full pbox pbox fzero)
          (full box box fzero)) ;;
      match co_noises out with
      | [] => Raise IndexError
      | n0 :: _ => Ok (out, full (nrows n0) (ncols n0) (store (inv (ravel n0))), datas)
      end) = Ok (out, weight, datas)) by (destruct slices; [congruence|exact E]).
  clear E. apply bind_ok in E' as ([out1 d1] & Eloop & E).
  destruct (co_noises out1) as [|n0 nr] eqn:En; [discriminate|]. apply Ok_inj in E.
  apply pair_equal_spec in E as [E <-]. apply pair_equal_spec in E as [<- <-].
  assert (Lw : length slices = length ws) by (unfold ws; rewrite map_length; exact El).
  rewrite coadd_loop_stored in Eloop.
  destruct (@coadd_loop_spec F stored_ops S _ _ _ _ _ Eloop)
    as (D & S1 & S2 & S3 & S4 & S5 & S6 & S7 & S8 & S9 & S10 & S11 & S12 & Hpx).
  cbn [co_image co_bmask co_ormask co_psf co_mfrac co_noises full nrows ncols px] in *.
  rewrite repeat_length in *.
  rewrite map_snd_combine in Hpx by exact Lw.
  assert (Hrep : forall i, (i < Datatypes.S nextra)%nat ->
            nth_error (repeat (full box box (fzero (F := F))) (Datatypes.S nextra)) i = Some (full box box fzero)).
  { clear. induction (Datatypes.S nextra) as [|n IH]; intros [|i] Hi; cbn; try lia; [reflexivity|].
    apply IH. lia. }
  split; [exact El|]. split; [exact Hne|].
  split.
  { clear - D Lw. clearbody ws. revert ws d1 D Lw.
    induction slices as [|s sl IH]; intros ws d1 D L.
    - inversion D. constructor.
    - destruct ws as [|w ws]; [discriminate|]. cbn in D. inversion D; subst. constructor; [assumption|].
      eapply IH; [eassumption|]. cbn in L. lia. }
  do 10 (split; [assumption|]). split; [exact S11|]. split; [exact S12|].
  destruct (Hpx 0 0) as (_ & _ & _ & _ & _ & Hn0).
  destruct (Hn0 0%nat _ (Hrep 0%nat ltac:(lia))) as (a' & ds & Ha' & R1 & R2 & _).
  rewrite En in Ha'. injection Ha' as <-. cbn [full nrows ncols] in R1, R2.
  split; [exact R1|]. split; [exact R2|].
  split; [exists n0; split; [rewrite En; reflexivity|reflexivity]|].
  intros r c. destruct (Hpx r c) as (P1 & P2 & P3 & P4 & P5 & P6).
  split; [exact P1|].
  split.
  { rewrite P2. unfold acc_sum, stored_sum. cbn [px].
    rewrite (map_ext _ (fun d => finite_part (px (rs_psf d) r c))); [reflexivity|].
    intros d. exact (@finite_or_zero_part F FO (px (rs_psf d) r c)). }
  split; [exact P3|].
  split; [intros k; rewrite P4, Z.bits_0; intuition discriminate|].
  split; [intros k; rewrite P5, Z.bits_0; intuition discriminate|].
  intros i Hi. destruct (P6 i _ (Hrep i Hi)) as (a & ds1 & Q1 & Q2 & Q3 & Q4 & Q5).
  exists a, ds1. split; [exact Q1|]. split; [exact Q2|]. split; [exact Q3|]. split; [exact Q4|exact Q5].
Qed.
End Gen.

(** Images of doubles. *)
Theorem coadd_as_double {F} {FO : FloatOps F} {S} (resample : S -> result (resampled (F := F))) box pbox slices weights nextra :
  coadd_slice_inputs_as (fun x => x) (fun l => fdiv fone (variance l)) resample box pbox slices weights nextra
  = coadd_slice_inputs resample box pbox slices weights nextra.
Proof.
  reflexivity.
Qed.

Open Scope R_scope.

Lemma stored_fold (l : list (f64 * f64)) :
  stored_sum to_single l = fold_single (map (fun p => fmul (fst p) (snd p)) l) fzero.
Proof.
  unfold stored_sum, fold_single. generalize (fzero : f64) as a.
  induction l as [|p l IH]; intros a; cbn [fold_left map]; [reflexivity|apply IH].
Qed.

Lemma single_0 : single 0.
Proof. exists 0%Z, 0%Z. split; [cbn; ring|]. split; [reflexivity|lia]. Qed.

Section Weights.
Variables (weights : list f64) (ws : list R).
Hypothesis Hw : Forall2 f64_is weights ws.
Hypothesis Hr : Forall (fun w => bpow radix2 (-450) <= w <= bpow radix2 450) ws.
Hypothesis Hn : (Z.of_nat (length ws) <= 2 ^ 20)%Z.

Lemma mean_of_singles ds xs : length ds = length ws -> ws <> [] ->
  Forall2 f64_is ds xs -> Forall (fun x => Rabs x <= bpow radix2 100) xs ->
  exists v, f64_is (stored_sum to_single (combine ds (map (fun w => fdiv w (fsum weights)) weights))) v /\
    single v /\
    Rabs (v - weighted_mean xs ws)
      <= (INR (length ws) + 1) * bpow radix2 (-22) * weighted_mean (map Rabs xs) ws + bpow radix2 (-120) /\
    (Forall (fun x => 0 <= x) xs -> 0 <= v).
Proof.
  intros L Hne Hxs Hb.
  assert (Hn40 : (Z.of_nat (length ws) <= 2 ^ 40)%Z).
  { assert (2 ^ 20 <= 2 ^ 40)%Z by (apply Z.pow_le_mono_r; lia). lia. }
  assert (T : 0 < total ws).
  { destruct ws as [|w0 ws0] eqn:Ew; [congruence|]. rewrite <- Ew in *.
    pose proof (total_pos_member ws w0 (ws_pos ws Hr) ltac:(rewrite Ew; now left)) as T0.
    pose proof (ws_pos ws Hr) as P. rewrite Forall_forall in P. specialize (P w0 ltac:(rewrite Ew; now left)). lra. }
  assert (Hnn : Forall (fun w => 0 <= w) ws).
  { eapply Forall_impl; [|exact (ws_pos ws Hr)]. cbn beta. intros; lra. }
  assert (Lx : length xs = length ws) by (rewrite <- (F2_len _ _ _ Hxs); exact L).
  assert (Hb450 : Forall (fun x => Rabs x <= bpow radix2 450) xs).
  { eapply Forall_impl; [|exact Hb]. cbn beta. intros x Hx. eapply Rle_trans; [exact Hx|]. apply bpow_le. lia. }
  destruct (product_terms ws ds xs Hxs Hb450 _ ws
      (normalised_weights weights ws Hw Hr Hn40) Hnn T Lx) as (ts & Ht & E1 & E2 & _ & E4).
  set (q := weighted_sum (combine xs ws) / total ws) in *.
  set (qa := weighted_sum (combine (map Rabs xs) ws) / total ws) in *.
  set (n := INR (length ws)) in *.
  assert (N0 : 0 <= n) by apply pos_INR.
  assert (N20 : n <= 1048576) by (unfold n; rewrite INR_IZR_INZ; apply (IZR_le _ (2 ^ 20)); exact Hn).
  assert (Qa0 : 0 <= qa).
  { unfold qa. apply Rmult_le_pos; [|left; now apply Rinv_0_lt_compat].
    clear - Hnn. revert xs. induction Hnn as [|w l Hw0 _ IH]; intros [|x xs]; cbn; try lra.
    pose proof (Rmult_le_pos _ _ (Rabs_pos x) Hw0). specialize (IH xs). unfold weighted_sum in IH. lra. }
  assert (Qa1 : qa <= bpow radix2 100).
  { unfold qa. apply Rmult_le_reg_r with (total ws); [exact T|]. unfold Rdiv. rewrite Rmult_assoc, Rinv_l, Rmult_1_r by lra.
    clear - Hnn Hb Lx. revert Hb. generalize (bpow radix2 100). intros B Hb. revert xs Hb Lx. induction Hnn as [|w l Hw0 _ IH]; intros [|x xs] Hb Lx; try discriminate; cbn.
    - lra.
    - inversion Hb as [|? ? B1 B2]; subst. injection Lx as Lx. specialize (IH xs B2 Lx).
      unfold weighted_sum, total in IH.
      pose proof (Rmult_le_compat_r w _ _ Hw0 B1). rewrite Rmult_plus_distr_l. lra. }
  (* the number of roundings *)
  assert (U53 : uro = / 9007199254740992) by reflexivity.
  assert (Ed : del = / 8388608) by reflexivity.
  assert (Ku : INR (length ws + 2) * uro <= / 2).
  { rewrite plus_INR. fold n. cbn [INR]. rewrite U53. lra. }
  pose proof (pow_bound (length ws + 2) Ku) as Pu. rewrite plus_INR in Pu. cbn [INR] in Pu. fold n in Pu.
  unfold pw in E1. pose proof (pow_ge_1 (length ws + 2)) as Pu1. set (PU := (1 + uro) ^ (length ws + 2)) in *.
  rewrite U53 in Pu.
  set (eta := bpow radix2 (-1075)) in *. assert (H0 : 0 < eta) by apply bpow_gt_0.
  assert (Lt : length (map (fun p : f64 * f64 => fmul (fst p) (snd p)) (combine ds (map (fun w => fdiv w (fsum weights)) weights)))
               = length ws).
  { rewrite map_length, combine_length, map_length, (F2_len _ _ _ Hw). lia. }
  assert (Kd : INR (length ws) * del <= / 2) by (fold n; rewrite Ed; lra).
  pose proof (pow_del_bound (length ws) Kd) as Pd. fold n in Pd. pose proof (pow_del_ge (length ws)) as Pd1.
  set (PD := (1 + del) ^ length ws) in *. rewrite Ed in Pd.
  assert (PD2 : PD <= 2) by lra. assert (PU2 : PU <= 2) by lra.
  assert (Ee : eta <= eta32) by (unfold eta, eta32; apply bpow_le; lia).
  assert (E32 : eta32 = bpow radix2 (-150)) by reflexivity.
  assert (E32p := eta32_pos).
  assert (Ne : n * eta32 <= bpow radix2 (-130)).
  { apply Rle_trans with (bpow radix2 20 * bpow radix2 (-150)).
    - rewrite E32. apply Rmult_le_compat_r; [apply bpow_ge_0|]. change (bpow radix2 20) with 1048576. exact N20.
    - rewrite <- bpow_plus. apply bpow_le. lia. }
  assert (N1 : n * eta <= n * eta32) by (apply Rmult_le_compat_l; lra).
  assert (Z0 : f64_is (fzero : f64) 0) by (apply (f64_ofZ_is 0); cbn; lia).
  pose proof (asum_nonneg ts) as A0.
  assert (A2 : asum ts <= 2 * qa + n * eta32).
  { eapply Rle_trans; [exact E2|]. assert (PU * qa <= 2 * qa) by (apply Rmult_le_compat_r; lra). lra. }
  assert (S30 : bpow radix2 (-130) <= 1) by (change 1 with (bpow radix2 0); apply bpow_le; lia).
  assert (S100 : 1 <= bpow radix2 100) by (change 1 with (bpow radix2 0); apply bpow_le; lia).
  destruct (fold_single_error _ ts Ht (fzero : f64) 0 Z0 single_0) as (s & Hs & Ss & Es & Ps).
  { rewrite Lt. fold PD n. rewrite Rabs_R0, Rplus_0_l.
    assert (B : bpow radix2 120 = bpow radix2 100 * 1048576).
    { change 120%Z with (100 + 20)%Z. rewrite bpow_plus. reflexivity. }
    rewrite B. apply Rle_trans with (2 * (asum ts + n * eta32)); [apply Rmult_le_compat_r; nra|]. lra. }
  rewrite Lt in Es. fold PD n in Es. rewrite Rabs_R0, !Rplus_0_l in Es.
  exists s. split; [rewrite stored_fold; exact Hs|]. split; [exact Ss|]. split.
  - unfold weighted_mean. fold q qa.
    replace (s - q) with ((s - rsum ts) + (rsum ts - q)) by ring.
    eapply Rle_trans; [apply Rabs_triang|].
    assert (M1 : (PD - 1) * asum ts <= (n * / 4194304) * (PU * qa + n * eta)).
    { apply Rmult_le_compat; lra. }
    assert (M2 : (n * / 4194304) * (PU * qa + n * eta) <= n * / 4194304 * (PU * qa) + n * eta).
    { rewrite Rmult_plus_distr_l. apply Rplus_le_compat_l. rewrite <- (Rmult_1_l (n * eta)) at 2.
      apply Rmult_le_compat_r; [apply Rmult_le_pos; lra|]. lra. }
    assert (M3 : n * / 4194304 * (PU * qa) <= n * / 4194304 * qa + / 4 * ((PU - 1) * qa)).
    { replace (n * / 4194304 * (PU * qa)) with (n * / 4194304 * qa + n * / 4194304 * ((PU - 1) * qa)) by ring.
      apply Rplus_le_compat_l, Rmult_le_compat_r; [apply Rmult_le_pos; lra|]. lra. }
    assert (M4 : (PU - 1) * qa <= / 8388608 * qa) by (apply Rmult_le_compat_r; lra).
    assert (M5 : n * PD * eta32 <= 2 * (n * eta32)).
    { replace (n * PD * eta32) with (PD * (n * eta32)) by ring. apply Rmult_le_compat_r; [|exact PD2].
      apply Rmult_le_pos; lra. }
    assert (M6 : 8 * bpow radix2 (-130) <= bpow radix2 (-120)).
    { change 8 with (bpow radix2 3). rewrite <- bpow_plus. apply bpow_le. lia. }
    change (bpow radix2 (-22)) with (/ 4194304).
    assert (G0 : 0 <= n * eta32) by (apply Rmult_le_pos; lra).
    clear - Es E1 N1 Ne M1 M2 M3 M4 M5 M6 Qa0 G0.
    generalize dependent (bpow radix2 (-120)). generalize dependent (bpow radix2 (-130)). intros b1 B1 b2 B2.
    assert (K1 : Rabs (s - rsum ts) <= n * / 4194304 * qa + / 4 * (/ 8388608 * qa) + n * eta + 2 * (n * eta32)) by lra.
    assert (K2 : Rabs (rsum ts - q) <= / 8388608 * qa + n * eta) by lra.
    assert (K3 : (n + 1) * / 4194304 * qa = n * / 4194304 * qa + 2 * (/ 8388608 * qa)) by lra.
    assert (K4 : 0 <= / 8388608 * qa) by (apply Rmult_le_pos; lra).
    rewrite K3. lra.
  - intros Hx. apply Ps; [lra|]. apply E4, Hx.
Qed.
End Weights.
