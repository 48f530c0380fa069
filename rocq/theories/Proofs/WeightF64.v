(** Weights of the selected images, in double arithmetic. *)
From Coq Require Import ZArith List Bool String Lia Reals Lra SpecFloat.
From Flocq Require Import Core BinarySingleNaN.
From Coq Require Import List.
From Verif Require Import Lib.Base Lib.Floats Model.SliceInputs Spec.FloatSpec Spec.CoaddSpec
  Spec.FlagSpec Proofs.BaseFacts Proofs.F64Facts Proofs.RoundSum Proofs.CoaddF64
  Proofs.SliceInputsProofs Proofs.SelectProofs Proofs.WeightProofs Spec.SliceInputsSpec.
Import ListNotations.
Open Scope list_scope.
Open Scope R_scope.

Definition value_in (l : list f64) (m : R) : Prop :=
  (exists x, In x l /\ f64_is x m) /\ forall x v, In x l -> f64_is x v -> v <= m.

Lemma f64_is_fun x v w : f64_is x v -> f64_is x w -> v = w.
Proof. intros (_ & _ & <-) (_ & _ & <-). reflexivity. Qed.

Lemma f64_not_nan (x : f64) v : f64_is x v -> fnan x = false.
Proof. intros (_ & H & _). destruct x; try reflexivity; discriminate. Qed.

Lemma np_max_is (l : list f64) m :
  (forall x, In x l -> exists v, f64_is x v) -> np_max l = Ok m -> exists v, f64_is m v /\ value_in l v.
Proof.
  destruct l as [|x l]; [discriminate|]. intros Hl E. cbn [np_max] in E. apply Ok_inj in E. subst m.
  revert x Hl. induction l as [|y l IH]; intros x Hl; cbn [fold_left].
  - destruct (Hl x (or_introl eq_refl)) as (v & Hv). exists v. split; [exact Hv|]. split.
    + exists x. split; [now left|exact Hv].
    + intros z w [<-|[]] Hz. rewrite (f64_is_fun _ _ _ Hz Hv). lra.
  - destruct (Hl x (or_introl eq_refl)) as (v & Hv).
    destruct (Hl y (or_intror (or_introl eq_refl))) as (w & Hw).
    rewrite (f64_not_nan _ _ Hv), (f64_not_nan _ _ Hw). cbn [orb].
    pose proof (f64_ltb_is x y v w Hv Hw) as L.
    change (@fltb f64 F64Ops x y) with (SFltb x y).
    assert (Hz : exists z zv, (if SFltb x y then y else x) = z /\ (z = x \/ z = y) /\ f64_is z zv /\ v <= zv /\ w <= zv).
    { destruct (SFltb x y).
      - exists y, w. destruct L as [L _]. specialize (L eq_refl). repeat split; auto; try apply Hw; lra.
      - exists x, v. destruct L as [_ L]. assert (K : w <= v).
        { destruct (Rlt_or_le v w) as [K|K]; [specialize (L K); discriminate|exact K]. }
        split; [reflexivity|]. split; [now left|]. split; [exact Hv|lra]. }
    destruct Hz as (z & zv & -> & Hzz & Hzv & Lv & Lw).
    destruct (IH z) as (m & Hm & (q & Iq & Hq) & M).
    { intros q [<-|Iq]; [exists zv; exact Hzv|]. apply Hl. right. now right. }
    exists m. split; [exact Hm|]. split.
    + exists q. split; [|exact Hq]. destruct Iq as [<-|Iq]; [|right; now right].
      destruct Hzz as [->| ->]; [now left|right; now left].
    + pose proof (M z zv (or_introl eq_refl) Hzv) as Mz.
      intros t tv [<-|[<-|It]] Ht.
      * rewrite (f64_is_fun _ _ _ Ht Hv). lra.
      * rewrite (f64_is_fun _ _ _ Ht Hw). lra.
      * apply (M t tv); [now right|exact Ht].
Qed.

Lemma max_of_map (w : img f64) m : ordinary_weight_map w -> np_max (ravel w) = Ok m ->
  exists v, f64_is m v /\ largest_value w v.
Proof.
  intros Hw E. destruct (fun H => np_max_is (ravel w) m H E) as (v & Hv & (x & Ix & Hx) & M).
  - intros x Hx. unfold ravel in Hx. apply in_map_iff in Hx as ([r c] & <- & Hin). apply In_allpix in Hin.
    destruct (Hw r c Hin) as (v & Hv & _). exists v. exact Hv.
  - exists v. split; [exact Hv|]. unfold ravel in *. split.
    + apply in_map_iff in Ix as ([r c] & <- & Hin). apply In_allpix in Hin. exists r, c. split; assumption.
    + intros r c u Hin Hu. apply (M (px w r c)); [|exact Hu]. apply in_map_iff. exists (r, c).
      split; [reflexivity|]. now apply In_allpix.
Qed.

Lemma pow_bounds (a lo hi : R) k : 0 <= lo -> lo <= a <= hi -> lo ^ k <= a ^ k <= hi ^ k.
Proof. intros H0 H. split; apply pow_incr; lra. Qed.

(** The quotient by the fourth power. *)
Lemma fwhm_weight (d f : f64) m fw :
  f64_is d m -> f64_is f fw -> bpow radix2 (-150) <= m <= bpow radix2 150 ->
  bpow radix2 (-10) <= Rabs fw <= bpow radix2 10 ->
  exists v, f64_is (fdiv d (fmul (fmul f f) (fmul f f))) v /\ close 4 v (m / fw ^ 4) /\
    bpow radix2 (-190) <= v <= bpow radix2 190.
Proof.
  intros Hd Hf Hm Hfw.
  assert (P10 : 0 < bpow radix2 (-10)) by apply bpow_gt_0.
  assert (Nf : fw <> 0) by (intros ->; rewrite Rabs_R0 in Hfw; lra).
  assert (U2 : (1 + uro) <= 2).
  { unfold uro. assert (bpow radix2 (-53) <= bpow radix2 0) by (apply bpow_le; lia). cbn [bpow] in *. lra. }
  assert (Q2 : bpow radix2 (-20) <= fw * fw <= bpow radix2 20).
  { replace (fw * fw) with (Rabs fw * Rabs fw) by (rewrite <- Rabs_mult; apply Rabs_pos_eq; apply Rle_0_sqr).
    change (bpow radix2 (-20)) with (bpow radix2 (-10 + -10)). change (bpow radix2 20) with (bpow radix2 (10 + 10)).
    rewrite !bpow_plus. split; apply Rmult_le_compat; try apply bpow_ge_0; try apply Rabs_pos; lra. }
  assert (B20 : 0 < bpow radix2 (-20)) by apply bpow_gt_0.
  assert (F2 : f64_is (fmul f f) (rnd (fw * fw))).
  { apply mul_is; [exact Hf|exact Hf|]. rewrite Rabs_pos_eq by lra. eapply Rle_trans; [apply Q2|]. apply bpow_le. lia. }
  assert (C2 : close 1 (rnd (fw * fw)) (fw * fw)).
  { apply close_rnd. rewrite Rabs_pos_eq by lra. eapply Rle_trans; [|apply Q2]. apply bpow_le. lia. }
  assert (R2 : bpow radix2 (-20) <= rnd (fw * fw) <= bpow radix2 20).
  { split; [apply round_ge_generic|apply round_le_generic]; try typeclasses eauto; try apply Q2;
      try (apply fexp_correct; reflexivity); apply generic_format_bpow; cbn; lia. }
  set (s2 := rnd (fw * fw)) in *.
  assert (Q4 : bpow radix2 (-40) <= s2 * s2 <= bpow radix2 40).
  { change (bpow radix2 (-40)) with (bpow radix2 (-20 + -20)). change (bpow radix2 40) with (bpow radix2 (20 + 20)).
    rewrite !bpow_plus. split; apply Rmult_le_compat; try apply bpow_ge_0; lra. }
  assert (B40 : 0 < bpow radix2 (-40)) by apply bpow_gt_0.
  assert (F4 : f64_is (fmul (fmul f f) (fmul f f)) (rnd (s2 * s2))).
  { apply mul_is; [exact F2|exact F2|]. rewrite Rabs_pos_eq by lra. eapply Rle_trans; [apply Q4|]. apply bpow_le. lia. }
  assert (C4 : close 3 (rnd (s2 * s2)) (fw ^ 4)).
  { apply (close_trans 1 2 _ (s2 * s2)).
    - apply close_rnd. rewrite Rabs_pos_eq by lra. eapply Rle_trans; [|apply Q4]. apply bpow_le. lia.
    - replace (fw ^ 4) with ((fw * fw) * (fw * fw)) by ring. apply (close_mult 1 1); exact C2. }
  assert (R4 : bpow radix2 (-40) <= rnd (s2 * s2) <= bpow radix2 40).
  { split; [apply round_ge_generic|apply round_le_generic]; try typeclasses eauto; try apply Q4;
      try (apply fexp_correct; reflexivity); apply generic_format_bpow; cbn; lia. }
  set (s4 := rnd (s2 * s2)) in *.
  assert (Qd : bpow radix2 (-190) <= m / s4 <= bpow radix2 190).
  { assert (I : bpow radix2 (-40) <= / s4 <= bpow radix2 40).
    { change (bpow radix2 (-40)) with (bpow radix2 (- (40))). rewrite bpow_opp.
      change (bpow radix2 40) with (bpow radix2 (- (-40))) at 2. rewrite bpow_opp.
      split; apply Rinv_le; lra. }
    change (bpow radix2 (-190)) with (bpow radix2 (-150 + -40)). change (bpow radix2 190) with (bpow radix2 (150 + 40)).
    rewrite !bpow_plus. pose proof (bpow_gt_0 radix2 (-150)). split; apply Rmult_le_compat; lra. }
  assert (B190 : 0 < bpow radix2 (-190)) by apply bpow_gt_0.
  exists (rnd (m / s4)). split; [|split].
  - apply div_is; [exact Hd|exact F4|lra|]. rewrite Rabs_pos_eq by lra. eapply Rle_trans; [apply Qd|]. apply bpow_le. lia.
  - apply (close_trans 1 3 _ (m / s4)).
    + apply close_rnd. rewrite Rabs_pos_eq by lra. eapply Rle_trans; [|apply Qd]. apply bpow_le. lia.
    + apply (close_div 0 3); [apply close_refl|exact C4].
  - assert (R : bpow radix2 (-190) <= rnd (m / s4) <= bpow radix2 190).
    { split; [apply round_ge_generic|apply round_le_generic]; try typeclasses eauto; try apply Qd;
        try (apply fexp_correct; reflexivity); apply generic_format_bpow; cbn; lia. }
    exact R.
Qed.

Lemma total_nonneg xs : Forall (fun x => 0 <= x) xs -> 0 <= total xs.
Proof.
  induction 1 as [|x xs P _ IH]; [cbn; lra|]. change (total (x :: xs)) with (x + total xs). lra.
Qed.

Lemma close_total cs xs : Forall2 (close 4) cs xs -> Forall (fun x => 0 <= x) xs -> close 4 (total cs) (total xs).
Proof.
  induction 1 as [|c x cs xs C _ IH]; intros P; [eapply close_weaken; [|apply close_refl]; lia|].
  inversion P as [|? ? P0 Ps]; subst.
  change (total (c :: cs)) with (c + total cs). change (total (x :: xs)) with (x + total xs).
  apply close_plus; [exact P0| |exact C|apply IH; exact Ps].
  apply total_nonneg. exact Ps.
Qed.

Lemma small_weight k p w T : INR k * uro <= / 2 -> close k p (w / T) -> bpow radix2 (-190) <= w <= bpow radix2 190 ->
  0 < T <= bpow radix2 230 -> bpow radix2 (-450) <= p.
Proof.
  intros Hk C Hw HT. pose proof (close_bound _ _ _ Hk C) as Cb.
  pose proof (bpow_gt_0 radix2 (-190)) as B.
  assert (Q : bpow radix2 (-420) <= w / T).
  { change (-420)%Z with (-190 + -230)%Z. rewrite bpow_plus. apply Rmult_le_compat; try apply bpow_ge_0; [lra|].
    change (-230)%Z with (- (230))%Z. rewrite bpow_opp. apply Rinv_le; lra. }
  pose proof (bpow_gt_0 radix2 (-420)) as B2.
  destruct C as (t & -> & Ht).
  assert (Hi : / 2 <= / (1 + uro) ^ k).
  { apply Rinv_le; [pose proof (pow_ge_1 k); lra|]. pose proof (pow_bound k Hk). lra. }
  apply Rle_trans with (bpow radix2 (-420) * bpow radix2 (-1)).
  - rewrite <- bpow_plus. apply bpow_le. lia.
  - change (bpow radix2 (-1)) with (/ 2). apply Rmult_le_compat; lra.
Qed.

Section P.
Context {RNG : Type}.
Context (rotate : f64 -> img f64 -> img f64).
Context (normal : RNG -> nat -> f64 -> list f64 * RNG).
Context (normal2 : RNG -> Z -> Z -> (Z -> Z -> f64) * RNG).
Context (interpolator : list (Z * Z) -> list f64 -> result (Z * Z -> f64)).
Context (median : list f64 -> f64).
Context (measure_fwhm : img f64 -> f64).
Context (outliers : list (img f64) -> list (img f64) -> nat -> (Z -> Z -> f64) * (Z -> Z -> f64)).
Notation build := (build_slice_inputs rotate normal normal2 interpolator median measure_fwhm
                     outliers).

Lemma coadd_weight_double cf (u : used_slice (F := f64)) wt :
  build_coadd_weight measure_fwhm (cf_coadding_weight cf) (sl_weight (u_slice u)) (sl_psf (u_slice u)) = Ok wt ->
  ordinary_weight_map (sl_weight (u_slice u)) ->
  (exists r c, inb (sl_weight (u_slice u)) r c /\ fleb (px (sl_weight (u_slice u)) r c) fzero = false) ->
  (cf_coadding_weight cf = "noise-fwhm"%string ->
     exists fw, f64_is (measure_fwhm (sl_psf (u_slice u))) fw /\ bpow radix2 (-10) <= Rabs fw <= bpow radix2 10) ->
  exists v x, f64_is wt v /\ raw_weight_double measure_fwhm (cf_coadding_weight (F := f64) cf) u x /\ close 4 v x /\ 0 < x /\
    bpow radix2 (-190) <= v <= bpow radix2 190.
Proof.
  intros E Hw (r & c & Hin & Hpos) Hf. unfold build_coadd_weight in E.
  assert (Hm : forall m, np_max (ravel (sl_weight (u_slice u))) = Ok m ->
    exists v, f64_is m v /\ largest_value (sl_weight (u_slice u)) v /\ bpow radix2 (-150) <= v <= bpow radix2 150).
  { intros m Em. destruct (max_of_map _ _ Hw Em) as (v & Hv & L). exists v. split; [exact Hv|]. split; [exact L|].
    destruct L as [(r' & c' & Hin' & Hv') M].
    destruct (Hw r' c' Hin') as (v2 & Hv2 & Hb). rewrite (f64_is_fun _ _ _ Hv2 Hv') in Hb.
    destruct Hb as [Hb|Hb]; [exfalso|exact Hb].
    destruct (Hw r c Hin) as (v3 & Hv3 & Hb3). pose proof (M r c v3 Hin Hv3) as K.
    assert (Z0 : f64_is (fzero : f64) 0) by (apply (f64_ofZ_is 0); cbn; lia).
    change (@fleb f64 F64Ops (px (sl_weight (u_slice u)) r c) fzero)
      with (SFleb (px (sl_weight (u_slice u)) r c) fzero) in Hpos.
    pose proof (proj2 (f64_leb_is _ _ _ _ Hv3 Z0) ltac:(lra)) as X.
    pose proof (eq_trans (eq_sym Hpos) X). discriminate. }
  pose proof (bpow_gt_0 radix2 (-150)) as B150.
  destruct (String.eqb_spec (cf_coadding_weight cf) "noise") as [Ec|Hn1].
  - destruct (Hm wt E) as (v & Hv & L & Bv). exists v, v. split; [exact Hv|]. split; [|split; [|split]].
    + exists v. split; [exact L|]. left. auto.
    + eapply close_weaken; [|apply close_refl]. lia.
    + lra.
    + split.
      * apply Rle_trans with (bpow radix2 (-150)); [apply bpow_le; lia|apply Bv].
      * apply Rle_trans with (bpow radix2 150); [apply Bv|apply bpow_le; lia].
  - destruct (String.eqb_spec (cf_coadding_weight cf) "noise-fwhm") as [Ec|Hn2]; [|discriminate].
    apply bind_ok in E as (m & Em & E). apply Ok_inj in E. subst wt.
    destruct (Hm m Em) as (v & Hv & L & Bv). destruct (Hf Ec) as (fw & Hfw & Bf).
    destruct (fwhm_weight m _ v fw Hv Hfw Bv Bf) as (q & Hq & C & Bq).
    exists q, (v / fw ^ 4). split; [exact Hq|]. split; [|split; [exact C|split; [|exact Bq]]].
    + exists v. split; [exact L|]. right. split; [exact Ec|]. exists fw. auto.
    + apply Rmult_lt_0_compat; [lra|]. apply Rinv_0_lt_compat.
      replace (fw ^ 4) with (Rsqr (Rsqr fw)) by (unfold Rsqr; ring).
      apply Rsqr_pos_lt. intros Hz. apply Rsqr_eq_0 in Hz. subst fw. rewrite Rabs_R0 in Bf.
      pose proof (bpow_gt_0 radix2 (-10)). lra.
Qed.

Theorem weights_normalised_double cf mg srcs rng out rng' :
  (forall r n x, length (fst (normal r n x)) = n) ->
  (forall src s, In src srcs -> src_slice src = Ok s -> exists nr nc, shaped nr nc s) ->
  (forall f s g nr nc, mg = Some f -> shaped nr nc s -> cut_out_of srcs s -> f s = Ok g -> shape_is nr nc g) ->
  build cf mg srcs rng = Ok (out, rng') ->
  ordinary_inputs measure_fwhm (cf_coadding_weight cf) (si_slices out) ->
  let n := INR (length (si_slices out)) in
  exists raw ps,
    Forall2 (raw_weight_double measure_fwhm (cf_coadding_weight cf)) (si_slices out) raw /\ Forall (fun x => 0 < x) raw /\
    Forall2 f64_is (si_weights out) ps /\
    Forall2 (fun p x => bpow radix2 (-450) <= p <= 1 /\
      Rabs (p - x / total raw) <= (n + 9) * bpow radix2 (-52) * (x / total raw)) ps raw /\
    (si_slices out <> [] -> Rabs (total ps - 1) <= (n + 1) * bpow radix2 (-52)).
Proof.
  intros Hn Hsh Hg E (Hord & Hfw & Hcount).
  destruct (build_verdicts rotate normal normal2 interpolator median measure_fwhm outliers
              cf mg srcs rng out rng' Hn Hsh Hg E) as (vs & Eo & Hv).
  assert (Hus : si_slices out = used_of vs) by (rewrite Eo; reflexivity).
  assert (Hws : si_weights out = normalise (weights_of vs)) by (rewrite Eo; reflexivity).
  rewrite Hus in *. rewrite Hws. clear Hus Hws.
  assert (Hraw : forall u wt, In (Used u wt) vs ->
     build_coadd_weight measure_fwhm (cf_coadding_weight cf) (sl_weight (u_slice u)) (sl_psf (u_slice u)) = Ok wt /\
     exists r c, inb (sl_weight (u_slice u)) r c /\ fleb (px (sl_weight (u_slice u)) r c) fzero = false).
  { intros u wt Hin.
    destruct (Hv _ Hin) as (src & s0 & s & g & s' & r & r' & nr & nc & _ & _ & _ & _ & Hs' & _ & _ & _ & Hju).
    pose proof (used_has_weight _ _ _ _ _ _ _ _ _ _ _ _ _ _ _ Hs' Hju) as Hpos.
    inversion Hju as [| | | |im ns r1 im2 ns2 w2 b2 im3 ns3 pm u0 wt0 Hok Hfill Hprep Hnfe Hint Hpm Hfr Hint2 Hwt]; subst.
    destruct Hint2 as [Iu _ _ _ _ _ _]. rewrite Iu. cbn [sl_weight sl_psf].
    split; [exact Hwt|exact Hpos]. }
  assert (HF : exists cs raw, Forall2 f64_is (weights_of vs) cs /\
     Forall (fun v => bpow radix2 (-190) <= v <= bpow radix2 190) cs /\
     Forall2 (raw_weight_double measure_fwhm (cf_coadding_weight cf)) (used_of vs) raw /\
     Forall2 (close 4) cs raw /\ Forall (fun x => 0 < x) raw).
  { clear - Hraw Hord Hfw. induction vs as [|v vs IH].
    - exists [], []. repeat split; constructor.
    - destruct v as [u wt|s f].
      + cbn [used_of weights_of flat_map app] in *.
        destruct IH as (cs & raw & I1 & I2 & I3 & I4 & I5).
        * intros u0 Hin. apply Hord. now right.
        * intros Hc u0 Hin. apply Hfw; [exact Hc|]. now right.
        * intros u0 wt0 Hin. apply Hraw. now right.
        * destruct (Hraw u wt (or_introl eq_refl)) as [Hwt Hpos].
          destruct (coadd_weight_double cf u wt Hwt (Hord u (or_introl eq_refl)) Hpos
                      (fun Hc => Hfw Hc u (or_introl eq_refl))) as (v & x & V1 & V2 & V3 & V4 & V5).
          exists (v :: cs), (x :: raw). repeat split; constructor; assumption.
      + apply IH; [exact Hord|exact Hfw|]. intros u0 wt0 Hin. apply Hraw. now right. }
  destruct HF as (cs & raw & H1 & H2 & H3 & H4 & H5).
  pose proof (F2_len _ _ _ H3) as L3. pose proof (F2_len _ _ _ H4) as L4. pose proof (F2_len _ _ _ H1) as L1.
  assert (Lc : length cs = length (used_of vs)) by lia.
  rewrite <- Lc in Hcount |- *. cbv zeta. set (n := INR (length cs)).
  assert (H2' : Forall (fun v => bpow radix2 (-450) <= v <= bpow radix2 450) cs).
  { eapply Forall_impl; [|exact H2]. cbn beta. intros v [V1 V2]. split.
    - apply Rle_trans with (2 := V1). apply bpow_le. lia.
    - apply Rle_trans with (1 := V2). apply bpow_le. lia. }
  pose proof (normalised_weights (weights_of vs) cs H1 H2' Hcount) as HN.
  pose proof (small_count _ Hcount) as Q. fold n in Q. pose proof B13 as B. pose proof uro_pos as U.
  assert (N0 : 0 <= n) by apply pos_INR.
  assert (U1 : uro <= / 8192 / 2).
  { unfold uro. apply Rle_trans with (bpow radix2 (-14)); [apply bpow_le; lia|]. right. cbn. lra. }
  assert (Praw : forall x, In x raw -> 0 < x / total raw).
  { intros x Hx. pose proof (total_pos_member raw x H5 Hx). rewrite Forall_forall in H5. pose proof (H5 x Hx).
    apply Rmult_lt_0_compat; [assumption|]. apply Rinv_0_lt_compat. lra. }
  assert (Hct : close 4 (total cs) (total raw)).
  { apply close_total; [exact H4|]. eapply Forall_impl; [|exact H5]. cbn beta. intros; lra. }
  assert (Pc : Forall (fun w => 0 < w) cs) by (apply ws_pos; exact H2').
  assert (Tup : total cs <= bpow radix2 230).
  { apply Rle_trans with (INR (length cs) * bpow radix2 190).
    - apply total_upper. eapply Forall_impl; [|exact H2]. cbn beta. intros v [_ V]. exact V.
    - change 230%Z with (40 + 190)%Z. rewrite bpow_plus. apply Rmult_le_compat_r; [apply bpow_ge_0|].
      rewrite INR_IZR_INZ. change (bpow radix2 40) with (IZR (2 ^ 40)). now apply IZR_le. }
  assert (G : forall ds vs0 xs, Forall2 (fun d w => exists p, f64_is d p /\
       close (length cs + 1) p (w / total cs) /\ 0 < p <= 1) ds vs0 -> Forall2 (close 4) vs0 xs -> incl xs raw -> incl vs0 cs ->
     exists ps, Forall2 f64_is ds ps /\
       Forall2 (fun p x => bpow radix2 (-450) <= p <= 1 /\
         Rabs (p - x / total raw) <= (n + 9) * bpow radix2 (-52) * (x / total raw)) ps xs /\
       Forall2 (fun p w => close (length cs + 1) p (w / total cs)) ps vs0).
  { intros ds vs0 xs HA. revert xs. induction HA as [|d w ds ws0 (p & Hp & C & Bp) _ IH]; intros xs HB I J.
    - inversion HB; subst. exists []. repeat split; constructor.
    - inversion HB as [|? x ? xs' Cx HB']; subst.
      destruct (IH xs' HB') as (ps & P1 & P2 & P3); [intros y Hy; apply I; now right|intros y Hy; apply J; now right|].
      exists (p :: ps). repeat split; constructor; try assumption.
      split.
      { split; [|apply Bp]. apply (small_weight (length cs + 1) _ w (total cs)); [|exact C| |].
        - rewrite plus_INR. fold n. cbn [INR]. lra.
        - exact (proj1 (Forall_forall _ _) H2 w (J w (or_introl eq_refl))).
        - split; [|exact Tup]. pose proof (proj1 (Forall_forall _ _) Pc w (J w (or_introl eq_refl))) as W0. cbn beta in W0.
          pose proof (total_pos_member cs w Pc (J w (or_introl eq_refl))). lra. }
      assert (CC : close (length cs + 9) p (x / total raw)).
      { replace (length cs + 9)%nat with ((length cs + 1) + 8)%nat by lia.
        eapply close_trans; [exact C|]. apply (close_div 4 4); [exact Cx|exact Hct]. }
      assert (K : INR (length cs + 9) * uro <= / 2).
      { rewrite plus_INR. fold n. replace (INR 9) with 9 by (cbn; ring). lra. }
      pose proof (close_bound _ _ _ K CC) as Cb. rewrite plus_INR in Cb. fold n in Cb.
      replace (INR 9) with 9 in Cb by (cbn; ring).
      rewrite (Rabs_pos_eq (x / total raw)) in Cb; [exact Cb|]. left. apply Praw. apply I. now left. }
  destruct (G _ _ raw HN H4 (incl_refl _) (incl_refl _)) as (ps & P1 & P2 & P3).
  exists raw, ps. split; [exact H3|]. split; [exact H5|]. split; [exact P1|]. split; [exact P2|].
  intros Hne.
  assert (Tc : 0 < total cs).
  { destruct cs as [|c0 cs0] eqn:Ec; [destruct (used_of vs); [congruence|discriminate]|].
    inversion Pc; subst. pose proof (total_pos_member (c0 :: cs0) c0 Pc (or_introl eq_refl)). lra. }
  assert (S1 : forall qs ws0, Forall2 (fun p w => close (length cs + 1) p (w / total cs)) qs ws0 ->
     Forall (fun w => 0 < w) ws0 -> close (length cs + 1) (total qs) (total ws0 / total cs)).
  { clear - Tc. intros qs ws0 HF. induction HF as [|q w qs ws0 C _ IH]; intros P.
    - cbn. replace (0 / total cs) with 0 by (field; lra). eapply close_weaken; [|apply close_refl]. lia.
    - inversion P as [|? ? P0 Ps]; subst. change (total (q :: qs)) with (q + total qs).
      change (total (w :: ws0)) with (w + total ws0).
      replace ((w + total ws0) / total cs) with (w / total cs + total ws0 / total cs) by (field; lra).
      assert (I : 0 < / total cs) by now apply Rinv_0_lt_compat.
      apply close_plus; [apply Rmult_le_pos; lra| |exact C|apply IH; exact Ps].
      apply Rmult_le_pos; [|lra]. apply total_nonneg. eapply Forall_impl; [|exact Ps]. cbn beta. intros; lra. }
  pose proof (S1 ps cs P3 Pc) as CC. replace (total cs / total cs) with 1 in CC by (field; lra).
  assert (K : INR (length cs + 1) * uro <= / 2).
  { rewrite plus_INR. fold n. cbn [INR]. lra. }
  pose proof (close_bound _ _ _ K CC) as Cb. rewrite plus_INR in Cb. fold n in Cb. cbn [INR] in Cb.
  rewrite Rabs_R1, Rmult_1_r in Cb. exact Cb.
Qed.
End P.
