(** Weights of the selected images, in exact arithmetic. *)
From Coq Require Import ZArith List Bool String Lia Reals Lra Classical.
From Coq Require Import List.
From Verif Require Import Lib.Base Lib.Floats Model.Flag Model.Symmetrize Model.Interp
  Model.SliceInputs Spec.FlagSpec Spec.InterpSpec
  Proofs.BaseFacts Proofs.FlagProofs Proofs.InterpProofs Proofs.EdgeCopyProofs
  Proofs.SliceInputsProofs Proofs.SelectProofs Proofs.NpSum Spec.SliceInputsSpec.
Import ListNotations.
Open Scope list_scope.
Open Scope Z_scope.

Lemma R_np_max (l : list R) m : np_max l = Ok m ->
  In m l /\ forall x, In x l -> (x <= m)%R.
Proof.
  destruct l as [|x l]; [discriminate|]. cbn [np_max fnan ROps]. intros E. apply Ok_inj in E. subst m.
  revert x. induction l as [|y l IH]; intros x; cbn [fold_left].
  - split; [now left|]. intros z [->|[]]. lra.
  - cbn [orb fltb ROps] in *. set (x' := if Rltb x y then y else x).
    destruct (IH x') as [I1 I2]. split.
    + destruct I1 as [I1|I1]; [|right; right; exact I1]. rewrite <- I1. unfold x'.
      destruct (Rltb x y); [right; now left|now left].
    + assert (Hx : (x <= x')%R /\ (y <= x')%R).
      { unfold x', Rltb. destruct (Rlt_dec x y); lra. }
      pose proof (I2 x' (or_introl eq_refl)).
      intros z [->|[->|Hz]]; [lra|lra|]. apply I2. now right.
Qed.

Lemma R_fsum (l : list R) : fsum l = fold_right Rplus 0%R l.
Proof. apply adds_R, adds_fsum. Qed.

Lemma sum_scaled (l : list R) t : fold_right Rplus 0%R (map (fun w => w / t)%R l)
  = (fold_right Rplus 0 l / t)%R.
Proof.
  induction l as [|x l IH]; cbn; [unfold Rdiv; ring|]. rewrite IH. unfold Rdiv. ring.
Qed.

Lemma sum_positive (l : list R) : l <> [] -> Forall (fun w => 0 < w)%R l ->
  (0 < fold_right Rplus 0 l)%R.
Proof.
  intros Hne Hf.
  assert (Hge : forall l : list R, Forall (fun w => 0 < w)%R l -> (0 <= fold_right Rplus 0 l)%R).
  { clear. induction 1; cbn; lra. }
  destruct l as [|x l]; [congruence|]. inversion Hf; subst. cbn. specialize (Hge l H2). lra.
Qed.

Section G.
Context {F : Type} {FO : FloatOps F} {RNG : Type}.
Context (normal : RNG -> nat -> F -> list F * RNG).
Context (normal2 : RNG -> Z -> Z -> (Z -> Z -> F) * RNG).
Context (interpolator : list (Z * Z) -> list F -> result (Z * Z -> F)).
Context (median : list F -> F).
Context (measure_fwhm : img F -> F).

Lemma not_weightless (w : img F) (b : img Z) fl :
  ~ full_edge_unusable w b fl -> exists r c, inb w r c /\ fleb (px w r c) fzero = false.
Proof.
  intros H. apply NNPP. intros C. apply H. exists FirstRow. left. intros r c Hin _.
  unfold no_weight. destruct (fleb (px w r c) fzero) eqn:E; [reflexivity|].
  exfalso. apply C. exists r, c. split; assumption.
Qed.

Lemma used_has_weight cf g s p rng u wt rng' nr nc :
  shaped nr nc s ->
  judged normal normal2 interpolator median measure_fwhm cf g s p rng (Used u wt) rng' ->
  exists r c, inb (sl_weight s) r c /\ fleb (px (sl_weight s) r c) fzero = false.
Proof.
  intros (H1 & H2 & [I1 I2] & [W1 W2] & [B1 B2] & Hns) Hju.
  inversion Hju as [| | | |im ns r1 im2 ns2 w2 b2 im3 ns3 pm u0 wt0 Hok Hfill Hprep Hnfe Hint Hpm Hfr Hint2 Hwt]; subst.
  apply not_weightless in Hnfe. unfold prepared in Hprep.
  destruct (cf_copy_masked_edges cf) eqn:Hc; [|destruct Hprep as (_ & _ & -> & _); assumption].
  assert (Hnn : forall n, In n ns -> nrows n = nrows (sl_weight s) /\ ncols n = ncols (sl_weight s)).
  { rewrite Forall_forall in Hns.
    destruct Hfill as [(_ & _ & -> & _)|(_ & pos & mx & _ & _ & Hall)].
    - intros n Hn. destruct (Hns n Hn) as [N1 N2]. lia.
    - inversion Hall as [|? ? ? ? ? ? ? _ Hall']; subst.
      clear - Hall' Hns W1 W2. revert Hns Hall'. generalize (sl_noises s) as l. intros l Hns Hall.
      assert (K : forall n, In n ns -> exists n0, In n0 l /\ nrows n = nrows n0 /\ ncols n = ncols n0).
      { clear - Hall. induction Hall as [|a a' l l' r0 r1 r2 (d & _ & K1 & K2 & _) _ IH]; intros n Hn; [destruct Hn|].
        destruct Hn as [<-|Hn].
        - exists a. split; [now left|auto].
        - destruct (IH n Hn) as (n0 & X1 & X2). exists n0. split; [now right|assumption]. }
      intros n Hn. destruct (K n Hn) as (n0 & X1 & X2 & X3). destruct (Hns n0 X1). lia. }
  assert (Hims : nrows im = nrows (sl_weight s) /\ ncols im = ncols (sl_weight s)).
  { destruct Hfill as [(_ & -> & _)|(_ & pos & mx & _ & _ & Hall)]; [lia|].
    inversion Hall as [|? ? ? ? ? ? ? (d & _ & K1 & K2 & _) _]; subst. lia. }
  destruct Hims as [M1 M2].
  assert (Hd : 2 <= nrows (sl_weight s) /\ 2 <= ncols (sl_weight s)).
  { destruct (Z_lt_ge_dec (nrows (sl_weight s)) 2) as [L|L].
    - rewrite copy_edges_too_small in Hprep by (auto || lia). discriminate.
    - destruct (Z_lt_ge_dec (ncols (sl_weight s)) 2) as [L'|L']; [|lia].
      rewrite copy_edges_too_small in Hprep by (auto || lia). discriminate. }
  destruct (copy_edges_spec (sl_weight s) (sl_bmask s) (cf_spline_flags cf) ltac:(lia) ltac:(lia)
              im ns ltac:(lia) ltac:(lia) M1 M2 Hnn) as (out & Eo & _ & _ & _ & Hdw).
  rewrite Eo in Hprep. injection Hprep as ->. cbn [es_weight] in Hdw.
  destruct Hdw as (D1 & D2 & D3). destruct Hnfe as (r & c & Hin & Hpos).
  assert (Hin' : inb (sl_weight s) r c) by (unfold inb in *; lia).
  destruct (D3 r c Hin') as [Da Db].
  destruct (classic (exists q, edge_donor (bad_pixels (sl_weight s) (sl_bmask s) (cf_spline_flags cf)) (r, c) q))
    as [[[r' c'] Hdon]|Hno].
  - exists r', c'. rewrite <- (Da r' c' Hdon). split; [|assumption].
    inversion Hdon; subst; unfold inb, bad_pixels in *; cbn in *; lia.
  - rewrite Db in Hpos; [exists r, c; auto|]. intros q Hq. apply Hno. exists q. exact Hq.
Qed.

End G.

Section P.
Context {RNG : Type}.
Context (rotate : R -> img R -> img R).
Context (normal : RNG -> nat -> R -> list R * RNG).
Context (normal2 : RNG -> Z -> Z -> (Z -> Z -> R) * RNG).
Context (interpolator : list (Z * Z) -> list R -> result (Z * Z -> R)).
Context (median : list R -> R).
Context (measure_fwhm : img R -> R).
Context (outliers : list (img R) -> list (img R) -> nat -> (Z -> Z -> R) * (Z -> Z -> R)).
Notation build := (build_slice_inputs rotate normal normal2 interpolator median measure_fwhm
                     outliers).

Lemma coadd_weight_spec cfw (w psf : img R) x :
  build_coadd_weight measure_fwhm cfw w psf = Ok x ->
  exists m, largest_pixel w m /\
    ((cfw = "noise"%string /\ x = m) \/
     (cfw = "noise-fwhm"%string /\ x = m / measure_fwhm psf ^ 4)%R).
Proof.
  intros E. unfold build_coadd_weight in E.
  assert (Hm : forall m, np_max (ravel w) = Ok m -> largest_pixel w m).
  { intros m Em. apply R_np_max in Em as [M1 M2]. unfold ravel in M1, M2. split.
    - apply in_map_iff in M1 as ([r c] & <- & Hin). apply In_allpix in Hin.
      exists r, c. split; [exact Hin|reflexivity].
    - intros r c Hin. apply M2. apply in_map_iff. exists (r, c). split; [reflexivity|].
      now apply In_allpix. }
  destruct (String.eqb_spec cfw "noise") as [->|Hn1].
  - exists x. auto.
  - destruct (String.eqb_spec cfw "noise-fwhm") as [->|Hn2]; [|discriminate].
    apply bind_ok in E as (m & Em & E). apply Ok_inj in E. exists m. split; [auto|]. right.
    split; [reflexivity|]. rewrite <- E. cbn [fdiv fmul ROps]. f_equal. cbn. ring.
Qed.

Lemma used_has_positive_weight cf g s p rng u wt rng' nr nc :
  shaped nr nc s ->
  judged normal normal2 interpolator median measure_fwhm cf g s p rng (Used u wt) rng' ->
  exists r c, inb (sl_weight s) r c /\ (0 < px (sl_weight s) r c)%R.
Proof.
  intros H1 H2. destruct (used_has_weight _ _ _ _ _ _ _ _ _ _ _ _ _ _ _ H1 H2) as (r & c & Hin & Hp).
  exists r, c. split; [exact Hin|]. revert Hp. unfold fzero. cbn. unfold Rleb.
  destruct (Rle_dec (px (sl_weight s) r c) 0); [discriminate|]. intros _. lra.
Qed.

Theorem weights_normalised cf mg srcs rng out rng' :
  (forall r n x, length (fst (normal r n x)) = n) ->
  (forall src s, In src srcs -> src_slice src = Ok s -> exists nr nc, shaped nr nc s) ->
  (forall f s g nr nc, mg = Some f -> shaped nr nc s -> cut_out_of srcs s -> f s = Ok g -> shape_is nr nc g) ->
  build cf mg srcs rng = Ok (out, rng') ->
  (cf_coadding_weight cf = "noise-fwhm"%string ->
     forall u, In u (si_slices out) -> measure_fwhm (sl_psf (u_slice u)) <> 0%R) ->
  exists raw,
    Forall2 (raw_weight measure_fwhm cf) (si_slices out) raw /\
    Forall (fun x => 0 < x)%R raw /\
    si_weights out = map (fun x => x / fold_right Rplus 0 raw)%R raw /\
    length (si_weights out) = length (si_slices out) /\
    Forall (fun x => 0 < x)%R (si_weights out) /\
    (si_slices out <> [] -> fold_right Rplus 0%R (si_weights out) = 1%R).
Proof.
  intros Hn Hsh Hg E Hfw.
  destruct (build_verdicts rotate normal normal2 interpolator median measure_fwhm outliers
              cf mg srcs rng out rng' Hn Hsh Hg E) as (vs & Eo & Hv).
  assert (Hraw : forall u wt, In (Used u wt) vs -> raw_weight measure_fwhm cf u wt /\
                  exists r c, inb (sl_weight (u_slice u)) r c /\ (0 < px (sl_weight (u_slice u)) r c)%R).
  { intros u wt Hin.
    destruct (Hv _ Hin) as (src & s0 & s & g & s' & r & r' & nr & nc & _ & _ & _ & _ & Hs' & _ & _ & _ & Hju).
    pose proof (used_has_positive_weight _ _ _ _ _ _ _ _ _ _ Hs' Hju) as Hpos.
    inversion Hju as [| | | |im ns r1 im2 ns2 w2 b2 im3 ns3 pm u0 wt0 Hok Hfill Hprep Hnfe Hint Hpm Hfr Hint2 Hwt]; subst.
    destruct Hint2 as [Iu _ _ _ _ _ _]. unfold raw_weight. rewrite Iu. cbn [sl_weight sl_psf].
    split; [|exact Hpos]. apply coadd_weight_spec in Hwt. exact Hwt. }
  assert (Hus : si_slices out = used_of vs) by (rewrite Eo; reflexivity).
  assert (Hws : si_weights out = normalise (weights_of vs)) by (rewrite Eo; reflexivity).
  rewrite Hus in Hfw.
  assert (HF : Forall2 (raw_weight measure_fwhm cf) (used_of vs) (weights_of vs) /\
               Forall (fun x => 0 < x)%R (weights_of vs)).
  { clear - Hraw Hfw. induction vs as [|v vs IH]; [split; constructor|].
    destruct v as [u wt|s f].
    - cbn [used_of weights_of flat_map app].
      destruct IH as [I1 I2].
      + intros Hc u0 Hin. apply Hfw; [assumption|]. cbn. now right.
      + intros u0 wt0 Hin. apply Hraw. now right.
      + destruct (Hraw u wt (or_introl eq_refl)) as [Hr (r & c & Hin & Hpos)].
        split; constructor; try assumption.
        destruct Hr as (m & [_ Hm] & Hx). specialize (Hm r c Hin).
        destruct Hx as [[_ ->]|[Hc ->]]; [lra|].
        specialize (Hfw Hc u (or_introl eq_refl)).
        apply Rmult_lt_0_compat; [lra|]. apply Rinv_0_lt_compat.
        replace (measure_fwhm (sl_psf (u_slice u)) ^ 4)%R
          with (Rsqr (Rsqr (measure_fwhm (sl_psf (u_slice u))))) by (unfold Rsqr; ring).
        apply Rsqr_pos_lt. intros Hz. apply Rsqr_eq_0 in Hz. contradiction.
    - apply IH; [exact Hfw|intros u0 wt0 Hin; apply Hraw; now right]. }
  destruct HF as [HF1 HF2].
  assert (Hlen : length (used_of vs) = length (weights_of vs)) by (eapply Forall2_len; exact HF1).
  exists (weights_of vs). rewrite Hus, Hws. split; [assumption|]. split; [assumption|].
  assert (Hnm : normalise (weights_of vs) =
                map (fun x => x / fold_right Rplus 0 (weights_of vs))%R (weights_of vs)).
  { unfold normalise. rewrite R_fsum. reflexivity. }
  split; [exact Hnm|]. rewrite Hnm.
  split; [rewrite map_length; lia|].
  assert (Hsum : weights_of vs <> [] -> (0 < fold_right Rplus 0 (weights_of vs))%R)
    by (intros; now apply sum_positive).
  split.
  - apply Forall_forall. intros x Hx. apply in_map_iff in Hx as (y & <- & Hy).
    rewrite Forall_forall in HF2. specialize (HF2 y Hy).
    assert (weights_of vs <> []) by (intros C; rewrite C in Hy; destruct Hy).
    apply Rmult_lt_0_compat; [assumption|]. apply Rinv_0_lt_compat. auto.
  - intros Hne. rewrite sum_scaled.
    assert (weights_of vs <> []) by (destruct (weights_of vs), (used_of vs); cbn in *; congruence).
    specialize (Hsum H). field. lra.
Qed.

Theorem unknown_weight_type cfw (w psf : img R) :
  cfw <> "noise"%string -> cfw <> "noise-fwhm"%string ->
  build_coadd_weight measure_fwhm cfw w psf = Raise ValueError.
Proof.
  intros H1 H2. unfold build_coadd_weight.
  destruct (String.eqb_spec cfw "noise"); [contradiction|].
  destruct (String.eqb_spec cfw "noise-fwhm"); [contradiction|reflexivity].
Qed.
End P.

(** ** Equality of values *)
Lemma f64_eqb_cases (x y : f64) : feqb x y = true ->
  (x = y /\ feqb x x = true) \/ (exists s s', x = SpecFloat.S754_zero s /\ y = SpecFloat.S754_zero s').
Proof.
  cbn [feqb F64Ops]. unfold SpecFloat.SFeqb, SpecFloat.SFcompare.
  destruct x as [s|s| |s m e], y as [s'|s'| |s' m' e']; try discriminate; eauto;
    try (destruct s; discriminate); try (destruct s'; discriminate).
  - destruct s, s'; try discriminate; auto.
  - destruct s, s'; try discriminate.
    + destruct (Z.compare_spec e e'); try discriminate. subst e'.
      intros H. left. assert (m = m') as ->.
      { destruct (Pos.compare_cont Eq m m') eqn:E; try discriminate.
        apply Pos.compare_eq. exact E. }
      split; [reflexivity|]. rewrite Z.compare_refl.
      change (Pos.compare_cont Eq m' m') with (Pos.compare m' m'). now rewrite Pos.compare_refl.
    + destruct (Z.compare_spec e e'); try discriminate. subst e'.
      intros H. left. assert (m = m') as ->.
      { destruct (Pos.compare_cont Eq m m') eqn:E; try discriminate.
        apply Pos.compare_eq. exact E. }
      split; [reflexivity|]. rewrite Z.compare_refl.
      change (Pos.compare_cont Eq m' m') with (Pos.compare m' m'). now rewrite Pos.compare_refl.
Qed.

Lemma f64_eqb_sym (x y : f64) : feqb x y = true -> feqb y x = true.
Proof.
  intros H. destruct (f64_eqb_cases x y H) as [[-> E]|(s & s' & -> & ->)]; [assumption|reflexivity].
Qed.

Lemma f64_eqb_trans (x y z : f64) : feqb x y = true -> feqb y z = true -> feqb x z = true.
Proof.
  intros H1 H2. destruct (f64_eqb_cases x y H1) as [[-> _]|(s & s' & -> & ->)]; [assumption|].
  destruct (f64_eqb_cases _ _ H2) as [[<- _]|(t & t' & _ & ->)]; reflexivity.
Qed.

Lemma R_eqb_eq (x y : R) : feqb x y = true <-> x = y.
Proof.
  cbn [feqb ROps]. unfold Reqb. destruct (Req_EM_T x y); split; congruence.
Qed.
