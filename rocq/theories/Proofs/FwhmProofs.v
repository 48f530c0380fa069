From Coq Require Import ZArith List Reals Lia Lra Permutation.
From Verif Require Import Lib.Base Lib.Floats Model.Fwhm Spec.CoaddSpec Spec.FwhmSpec
  Proofs.BaseFacts Proofs.NoiseProofs Proofs.CoaddProofs Proofs.SliceInputsProofs.
Import ListNotations.
Open Scope R_scope.

Lemma ravel_imap {A B} (f : A -> B) (im : img A) : ravel (imap f im) = map f (ravel im).
Proof. unfold ravel, imap, allpix. cbn [px nrows ncols]. rewrite map_map. reflexivity. Qed.

Lemma image_max_R (im : img R) :
  match image_max im with
  | Ok m => largest (ravel im) m
  | Raise e => ravel im = [] /\ e = ValueError
  end.
Proof. unfold image_max. destruct (ravel im) as [|a l]; [tauto|]. apply fold_fmax_R. Qed.

Lemma largest_unique l m m' : largest l m -> largest l m' -> m = m'.
Proof. intros [H1 H2] [H3 H4]. apply Rle_antisym; auto. Qed.

Lemma fwhm_formula erf pi (im : img R) smooth m : largest (ravel im) m ->
  measure_fwhm erf pi im smooth
  = Ok (disc_diameter pi (area_above_half erf smooth m (ravel im))).
Proof.
  intros Hm. unfold measure_fwhm. pose proof (image_max_R im) as H.
  destruct (image_max im) as [m'|e].
  - rewrite (largest_unique _ _ _ H Hm). cbn [bind]. f_equal.
    rewrite !ravel_imap, !map_map, R_fsum_total.
    unfold disc_diameter, area_above_half. cbn [fofZ fmul fsqrt fdiv fsub fadd ROps].
    do 4 f_equal. apply map_ext. intros v. unfold fhalf, fdec, fone.
    cbn [fdiv fofZ fsub fadd fmul ROps]. lra.
  - destruct H as [H _]. rewrite H in Hm. destruct Hm as [[] _].
Qed.

Lemma fwhm_empty erf pi (im : img R) smooth : ravel im = [] ->
  measure_fwhm erf pi im smooth = Raise ValueError.
Proof. intros H. unfold measure_fwhm, image_max. rewrite H. reflexivity. Qed.

Lemma largest_exists (l : list R) : l <> [] -> exists m, largest l m.
Proof. destruct l as [|a l]; [congruence|]. intros _. eexists. apply fold_fmax_R. Qed.

Lemma largest_scale c l m : 0 < c -> largest l m -> largest (map (Rmult c) l) (c * m).
Proof.
  intros Hc [H1 H2]. split; [apply in_map; exact H1|].
  intros x Hx. apply in_map_iff in Hx as (y & <- & Hy). apply Rmult_le_compat_l; [lra|auto].
Qed.

Lemma largest_perm l l' m : Permutation l l' -> largest l m -> largest l' m.
Proof.
  intros P [H1 H2]. split; [exact (Permutation_in _ P H1)|].
  intros x Hx. apply H2. exact (Permutation_in _ (Permutation_sym P) Hx).
Qed.

Lemma total_perm l l' : Permutation l l' -> total l = total l'.
Proof. induction 1; unfold total in *; cbn [fold_right] in *; lra. Qed.

Lemma total_mono l l' : Forall2 Rle l l' -> total l <= total l'.
Proof. induction 1; unfold total in *; cbn [fold_right] in *; lra. Qed.

Lemma total_pos l : l <> [] -> (forall x, In x l -> 0 < x) -> 0 < total l.
Proof.
  intros Hne H. destruct l as [|a l]; [congruence|].
  assert (Ht : 0 <= total l).
  { assert (Hl : forall x, In x l -> 0 < x) by (intros; apply H; right; assumption).
    clear H Hne. induction l as [|b l IH]; unfold total in *; cbn [fold_right]; [lra|].
    pose proof (Hl b (or_introl eq_refl)). pose proof (IH (fun x Hx => Hl x (or_intror Hx))). lra. }
  pose proof (H a (or_introl eq_refl)). unfold total in *. cbn [fold_right]. lra.
Qed.

Lemma has_flux_largest im : has_flux im -> exists m, largest (ravel im) m /\ 0 < m.
Proof.
  intros (r & c & Hin & Hpos).
  assert (Hx : In (px im r c) (ravel im)) by (apply In_ravel; eauto).
  destruct (largest_exists (ravel im)) as [m Hm].
  - intros E. rewrite E in Hx. exact Hx.
  - exists m. split; [exact Hm|]. apply Rlt_le_trans with (1 := Hpos). apply Hm. exact Hx.
Qed.

Lemma fwhm_scale erf pi im smooth c : has_flux im -> 0 < c ->
  measure_fwhm erf pi (imap (Rmult c) im) smooth = measure_fwhm erf pi im smooth.
Proof.
  intros Hf Hc. destruct (has_flux_largest im Hf) as (m & Hm & Hpos).
  rewrite (fwhm_formula erf pi im smooth m Hm).
  rewrite (fwhm_formula erf pi (imap (Rmult c) im) smooth (c * m))
    by (rewrite ravel_imap; apply largest_scale; assumption).
  f_equal. f_equal. unfold area_above_half. rewrite ravel_imap, map_map.
  f_equal. apply map_ext. intros v. do 5 f_equal. field. lra.
Qed.

Lemma fwhm_perm erf pi im im' smooth : Permutation (ravel im) (ravel im') ->
  measure_fwhm erf pi im smooth = measure_fwhm erf pi im' smooth.
Proof.
  intros P. destruct (ravel im) as [|a l] eqn:E.
  - apply Permutation_nil in P. rewrite !fwhm_empty by assumption. reflexivity.
  - destruct (largest_exists (ravel im)) as [m Hm]; [rewrite E; discriminate|].
    rewrite <- E in P.
    rewrite (fwhm_formula _ _ _ _ m Hm).
    rewrite (fwhm_formula _ _ _ _ m (largest_perm _ _ _ P Hm)).
    f_equal. f_equal. apply total_perm. apply Permutation_map. exact P.
Qed.

Lemma diameter_mono pi a b : 0 < pi -> a <= b -> disc_diameter pi a <= disc_diameter pi b.
Proof.
  intros Hp H. unfold disc_diameter. apply Rmult_le_compat_l; [lra|]. apply sqrt_le_1_alt.
  unfold Rdiv. apply Rmult_le_compat_r; [|exact H]. left. apply Rinv_0_lt_compat. exact Hp.
Qed.

Lemma Forall2_map_same {A} (f g : A -> R) l : (forall x, In x l -> f x <= g x) ->
  Forall2 Rle (map f l) (map g l).
Proof.
  induction l as [|a l IH]; intros H; cbn; constructor; [apply H; left; reflexivity|].
  apply IH. intros x Hx. apply H. right. exact Hx.
Qed.
