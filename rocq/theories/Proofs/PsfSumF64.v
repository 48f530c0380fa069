(** The sum of the mean PSF in double precision. *)
From Coq Require Import ZArith List Bool Lia Reals Lra SpecFloat.
From Flocq Require Import Core BinarySingleNaN.
From Coq Require Import List.
From Verif Require Import Lib.Base Lib.Floats Spec.FloatSpec Spec.CoaddSpec Proofs.BaseFacts Proofs.F64Facts.
Import ListNotations.
Open Scope R_scope.

Lemma Z2Nat_max n : Z.of_nat (Z.to_nat n) = Z.max 0 n.
Proof. lia. Qed.

Section Sums.
Variables (A B : Type).

Lemma total_plus (f g : B -> R) l : total (map (fun b => f b + g b) l) = total (map f l) + total (map g l).
Proof. unfold total. induction l as [|b l IH]; cbn [map fold_right]; [ring|]. rewrite IH. ring. Qed.

Lemma total_scale k (f : B -> R) l : total (map (fun b => f b * k) l) = total (map f l) * k.
Proof. unfold total. induction l as [|b l IH]; cbn [map fold_right]; [ring|]. rewrite IH. ring. Qed.

Lemma total_minus (f g : B -> R) l : total (map (fun b => f b - g b) l) = total (map f l) - total (map g l).
Proof. unfold total. induction l as [|b l IH]; cbn [map fold_right]; [ring|]. rewrite IH. ring. Qed.

Lemma total_le (f g : B -> R) l : (forall b, In b l -> f b <= g b) -> total (map f l) <= total (map g l).
Proof.
  unfold total. induction l as [|b l IH]; cbn [map fold_right]; intros H; [lra|].
  apply Rplus_le_compat; [apply H; now left|apply IH; intros; apply H; now right].
Qed.

Lemma total_abs (f : B -> R) l : Rabs (total (map f l)) <= total (map (fun b => Rabs (f b)) l).
Proof.
  unfold total. induction l as [|b l IH]; cbn [map fold_right]; [rewrite Rabs_R0; lra|].
  eapply Rle_trans; [apply Rabs_triang|]. lra.
Qed.

Lemma total_const k (l : list B) : total (map (fun _ => k) l) = INR (length l) * k.
Proof.
  unfold total. induction l as [|b l IH]; [cbn; ring|]. cbn [map fold_right]. rewrite IH.
  change (length (b :: l)) with (S (length l)). rewrite S_INR. ring.
Qed.

(** The sum of weighted sums is the weighted sum of the sums. *)
Lemma total_weighted (v : A -> B -> R) : forall (xs : list A) ws (l : list B),
  total (map (fun b => weighted_sum (combine (map (fun a => v a b) xs) ws)) l)
  = weighted_sum (combine (map (fun a => total (map (v a) l)) xs) ws).
Proof.
  induction xs as [|a xs IH]; intros ws l; [cbn; unfold total; induction l; cbn; lra|].
  destruct ws as [|w ws]; [cbn; unfold total; induction l; cbn; lra|].
  cbn [map combine]. unfold weighted_sum at 1 2. cbn [fold_right fst snd].
  change (fold_right _ 0 (combine (map (fun a => total (map (v a) l)) xs) ws)) with
    (weighted_sum (combine (map (fun a => total (map (v a) l)) xs) ws)).
  rewrite <- IH, <- total_scale, <- total_plus. f_equal.
Qed.

Lemma total_mean (v : A -> B -> R) (xs : list A) ws (l : list B) :
  total (map (fun b => weighted_mean (map (fun a => v a b) xs) ws) l)
  = weighted_mean (map (fun a => total (map (v a) l)) xs) ws.
Proof. unfold weighted_mean, Rdiv. rewrite total_scale, total_weighted. reflexivity. Qed.
End Sums.
Arguments total_mean {A B}.
Arguments total_abs {B}.
Arguments total_le {B}.
Arguments total_plus {B}.
Arguments total_const {B}.

Lemma total_pos ws : Forall (fun w => 0 < w) ws -> ws <> [] -> 0 < total ws.
Proof.
  intros H N. destruct H as [|w l Hw H]; [congruence|]. clear N. unfold total. cbn [fold_right].
  assert (0 <= fold_right Rplus 0 l) by (induction H; cbn [fold_right]; lra). lra.
Qed.

Lemma mean_le (xs ws : list R) a : Forall (fun w => 0 < w) ws -> ws <> [] -> length xs = length ws ->
  Forall (fun x => x <= a) xs -> weighted_mean xs ws <= a.
Proof.
  intros Hw N L H. pose proof (total_pos _ Hw N) as T. unfold weighted_mean.
  apply (Rmult_le_reg_r (total ws)); [exact T|]. unfold Rdiv. rewrite Rmult_assoc, Rinv_l, Rmult_1_r by lra.
  clear N T. revert xs L H. induction Hw as [|w ws Hw' Hw IH]; intros xs L H; destruct xs as [|x xs]; try discriminate L.
  - cbn. lra.
  - inversion H as [|? ? Hx Hxs]; subst. injection L as L. specialize (IH xs L Hxs).
    unfold weighted_sum, total in *. cbn [combine fold_right fst snd].
    assert (x * w <= a * w) by (apply Rmult_le_compat_r; lra). lra.
Qed.

Lemma mean_near (xs ws : list R) m d : Forall (fun w => 0 < w) ws -> ws <> [] -> length xs = length ws ->
  Forall (fun x => Rabs (x - m) <= d) xs -> Rabs (weighted_mean xs ws - m) <= d.
Proof.
  intros Hw N L H. apply Rabs_le. split.
  - assert (K : weighted_mean (map Ropp xs) ws <= d - m).
    { apply mean_le; try assumption; [now rewrite map_length|]. apply Forall_map.
      eapply Forall_impl; [|exact H]. intros x Hx. apply Rabs_le_inv in Hx. lra. }
    assert (E : weighted_mean (map Ropp xs) ws = - weighted_mean xs ws).
    { unfold weighted_mean, Rdiv. rewrite Ropp_mult_distr_l. f_equal. clear. revert ws.
      induction xs as [|x xs IH]; intros [|w ws]; try (cbn; ring).
      unfold weighted_sum in *. cbn [map combine fold_right fst snd]. rewrite IH. ring. }
    lra.
  - assert (K : weighted_mean xs ws <= m + d).
    { apply mean_le; try assumption. eapply Forall_impl; [|exact H]. intros x Hx. apply Rabs_le_inv in Hx. lra. }
    lra.
Qed.

Section Psf.
Variables (ws : list R) (n : Z) (d a : R) (ims : list (img f64)) (mean : Z -> Z -> f64).
Hypothesis Hw : Forall (fun w => 0 < w) ws.
Hypothesis Hne : ws <> [].
Hypothesis Hl : length ims = length ws.
Hypothesis Hims : Forall (sums_to_one n d a) ims.
Hypothesis Hmean : forall r c, in_box n r c ->
  averages ws (map (fun im => finite_part (px im r c)) ims) (mean r c).

Let err : R := (3 * INR (length ws) + 2) * bpow radix2 (-52).

Lemma pixel_values r c : in_box n r c ->
  Forall2 f64_is (map (fun im => finite_part (px im r c)) ims) (map (fun im => f64_val (px im r c)) ims) /\
  Forall (fun x => Rabs x <= bpow radix2 450) (map (fun im => f64_val (px im r c)) ims).
Proof.
  intros [Hr Hc]. clear Hl Hmean. induction Hims as [|im l (N1 & N2 & F & _) H IH]; [split; constructor|].
  destruct IH as [I1 I2]; [assumption|]. cbn [map].
  destruct (F r c) as (v & V & Bv); [split; rewrite ?N1, ?N2; assumption|].
  pose proof V as V'. destruct V' as (V1 & V2 & <-).
  assert (E : finite_part (px im r c) = px im r c).
  { unfold finite_part. change (ffinite (px im r c)) with (f64_finite (px im r c)). now rewrite V2. }
  rewrite E. split; constructor; assumption.
Qed.

Theorem mean_sums_to_one :
  (forall r c, in_box n r c -> exists v, f64_is (mean r c) v) /\
  Rabs (total (map (fun yx => f64_val (mean (fst yx) (snd yx))) (allpix n n)) - 1)
  <= d + err * a + IZR (Z.max 0 n * Z.max 0 n) * bpow radix2 (-1000).
Proof.
  split.
  - intros r c H. destruct (pixel_values r c H) as [P1 P2]. destruct (Hmean r c H _ P1 P2) as (v & V & _). eauto.
  - set (val := fun (im : img f64) (yx : Z * Z) => f64_val (px im (fst yx) (snd yx))).
    set (M := fun yx => weighted_mean (map (fun im => val im yx) ims) ws).
    set (MA := fun yx => weighted_mean (map (fun im => Rabs (val im yx)) ims) ws).
    assert (E0 : 0 <= err).
    { unfold err. apply Rmult_le_pos; [pose proof (pos_INR (length ws)); lra|apply bpow_ge_0]. }
    assert (P : forall yx, In yx (allpix n n) ->
      Rabs (f64_val (mean (fst yx) (snd yx)) - M yx) <= MA yx * err + bpow radix2 (-1000)).
    { intros [r c] I. apply In_allpix in I. destruct (pixel_values r c I) as [P1 P2].
      destruct (Hmean r c I _ P1 P2) as (v & (_ & _ & V) & E). cbn [fst snd]. rewrite V.
      rewrite map_map in E. fold err in E. rewrite (Rmult_comm (MA (r, c))). exact E. }
    assert (R1 : forall im, In im ims ->
      map (val im) (allpix n n) = map f64_val (ravel im)).
    { intros im I. rewrite Forall_forall in Hims. destruct (Hims im I) as (N1 & N2 & _).
      unfold ravel. rewrite map_map, N1, N2. apply map_ext. intros []. reflexivity. }
    assert (S1 : Rabs (total (map M (allpix n n)) - 1) <= d).
    { unfold M. rewrite (total_mean val ims ws). apply mean_near; try assumption; [now rewrite map_length|].
      apply Forall_map, Forall_forall. intros im I. rewrite (R1 im I). rewrite Forall_forall in Hims.
      apply (Hims im I). }
    assert (S2 : total (map MA (allpix n n)) <= a).
    { unfold MA. rewrite (total_mean (fun im yx => Rabs (val im yx)) ims ws).
      apply mean_le; try assumption; [now rewrite map_length|].
      apply Forall_map, Forall_forall. intros im I. rewrite Forall_forall in Hims.
      destruct (Hims im I) as (N1 & N2 & _ & _ & S). 
      replace (map (fun yx => Rabs (val im yx)) (allpix n n)) with (map (fun x => Rabs (f64_val x)) (ravel im)); [exact S|].
      rewrite <- (map_map f64_val Rabs), <- (R1 im I), map_map. reflexivity. }
    set (out := fun yx : Z * Z => f64_val (mean (fst yx) (snd yx))) in *.
    assert (S3 : Rabs (total (map out (allpix n n)) - total (map M (allpix n n)))
                 <= a * err + IZR (Z.max 0 n * Z.max 0 n) * bpow radix2 (-1000)).
    { assert (Q : total (map out (allpix n n)) - total (map M (allpix n n))
                  = total (map (fun yx => out yx - M yx) (allpix n n))).
      { symmetry. apply total_minus. }
      rewrite Q. eapply Rle_trans; [apply total_abs|].
      eapply Rle_trans; [apply (total_le _ (fun yx => MA yx * err + bpow radix2 (-1000)) _ P)|].
      rewrite total_plus, total_scale, total_const, allpix_length.
      apply Rplus_le_compat; [apply Rmult_le_compat_r; assumption|].
      rewrite INR_IZR_INZ, Nat2Z.inj_mul, !Z2Nat_max. apply Req_le. reflexivity. }
    replace (total (map out (allpix n n)) - 1) with
      ((total (map out (allpix n n)) - total (map M (allpix n n))) + (total (map M (allpix n n)) - 1)) by ring.
    eapply Rle_trans; [apply Rabs_triang|]. lra.
Qed.
End Psf.
