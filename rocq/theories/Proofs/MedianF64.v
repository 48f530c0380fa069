(** The test of PSF models on doubles. *)
From Coq Require Import ZArith List Bool Reals Permutation Sorted Lia Lra SpecFloat.
From Flocq Require Import Core BinarySingleNaN.
From Coq Require Import List.
From Verif Require Import Lib.Base Lib.Floats Model.Piff Spec.PiffSpec Spec.FloatSpec Proofs.BaseFacts
  Proofs.F64Facts Proofs.RoundSum Proofs.CoaddF64 Proofs.LanczosF64 Proofs.PiffProofs.
Import ListNotations.
Open Scope R_scope.

#[local] Instance Hprec : Prec_gt_0 53 := eq_refl _.
#[local] Instance Hmax : Prec_lt_emax 53 1024 := eq_refl _.
#[local] Instance fexp64_valid : Valid_exp fexp64 := fexp_correct 53 1024 _.
#[local] Instance fexp64_mono : Monotone_exp fexp64 := fexp_monotone 53 1024.

Lemma leb_R (x y : f64) v w : f64_is x v -> f64_is y w -> fleb x y = fleb v w.
Proof.
  intros Hx Hy. pose proof (f64_leb_is x y v w Hx Hy) as L. change (SFleb x y) with (fleb x y) in L.
  pose proof (fleb_R v w) as R. destruct (fleb x y), (fleb v w); try reflexivity.
  - destruct R as [_ R]. symmetry. apply R, L. reflexivity.
  - destruct L as [_ L]. apply L, R. reflexivity.
Qed.

Lemma ltb_R (x y : f64) v w : f64_is x v -> f64_is y w -> fltb x y = fltb v w.
Proof.
  intros Hx Hy. pose proof (f64_ltb_is x y v w Hx Hy) as L. change (SFltb x y) with (fltb x y) in L.
  pose proof (fltb_R v w) as R. destruct (fltb x y), (fltb v w); try reflexivity.
  - destruct R as [_ R]. symmetry. apply R, L. reflexivity.
  - destruct L as [_ L]. apply L, R. reflexivity.
Qed.

Lemma insert_is x v : f64_is x v -> forall xs vs, Forall2 f64_is xs vs ->
  Forall2 f64_is (insert x xs) (insert v vs).
Proof.
  intros Hx. induction 1 as [|y w xs vs Hy H IH]; cbn [insert]; [constructor; [exact Hx|constructor]|].
  rewrite (leb_R x y v w Hx Hy). destruct (fleb v w).
  - constructor; [exact Hx|]. constructor; assumption.
  - constructor; assumption.
Qed.

Lemma fsort_is xs vs : Forall2 f64_is xs vs -> Forall2 f64_is (fsort xs) (fsort vs).
Proof.
  induction 1 as [|x v xs vs Hx H IH]; [constructor|]. cbn [fsort fold_right]. now apply insert_is.
Qed.

Lemma nth_is xs vs n : Forall2 f64_is xs vs -> f64_is (nth n xs (fzero : f64)) (nth n vs 0).
Proof.
  intros H. revert n. induction H as [|x v xs vs Hx H IH]; intros [|n]; cbn [nth];
    try (apply (f64_ofZ_is 0); lia); [exact Hx|apply IH].
Qed.

(** The median that is computed: the two middle elements are added and halved with
    roundings; nothing is rounded for an odd number. *)
Definition rounded_median (vs : list R) : R :=
  let s := fsort vs in
  let n := Z.of_nat (length vs) in
  let a := nth (Z.to_nat ((n - 1) / 2)) s 0 in
  let b := nth (Z.to_nat (n / 2)) s 0 in
  if (n mod 2 =? 1)%Z then b else rnd (rnd (a + b) / 2).

Lemma nth_bound vs n B : 0 <= B -> Forall (fun v => Rabs v <= B) vs -> Rabs (nth n (fsort vs) 0) <= B.
Proof.
  intros HB H. apply (Permutation_Forall (fsort_perm vs)) in H.
  destruct (Nat.lt_ge_cases n (length (fsort vs))) as [K|K].
  - apply (proj1 (Forall_forall _ _) H). now apply nth_In.
  - rewrite nth_overflow by exact K. now rewrite Rabs_R0.
Qed.

Lemma sum_bound (a b B : R) : Rabs a <= B -> Rabs b <= B -> Rabs (a + b) <= 2 * B.
Proof. intros. eapply Rle_trans; [apply Rabs_triang|]. lra. Qed.

Lemma big_998 : 4 * bpow radix2 998 = bpow radix2 1000.
Proof. change 4 with (bpow radix2 2). rewrite <- bpow_plus. reflexivity. Qed.

(** Halving twice the bound. *)
Lemma rounded_median_bound vs B : 0 <= B -> generic_format radix2 fexp64 B ->
  Forall (fun v => Rabs v <= B) vs -> Rabs (rounded_median vs) <= B.
Proof.
  intros HB G H. unfold rounded_median.
  cbv zeta. set (n := Z.of_nat (length vs)).
  set (a := nth (Z.to_nat ((n - 1) / 2)) (fsort vs) 0). set (b := nth (Z.to_nat (n / 2)) (fsort vs) 0).
  assert (Ba : Rabs a <= B) by (apply nth_bound; assumption).
  assert (Bb : Rabs b <= B) by (apply nth_bound; assumption).
  destruct (_ =? 1)%Z; [exact Bb|].
  apply abs_round_le_generic; [typeclasses eauto..|exact G|].
  assert (G2 : generic_format radix2 fexp64 (2 * B)).
  { rewrite Rmult_comm. change 2 with (bpow radix2 1).
    apply (generic_format_FLT radix2 (-1074) 53).
    apply (FLT_format_generic radix2 (-1074) 53) in G as [[m e] E1 E2 E3].
    apply (FLT_spec radix2 (-1074) 53 _ (Float radix2 m (e + 1))).
    - rewrite E1. unfold F2R. cbn [Fnum Fexp]. rewrite bpow_plus. ring.
    - exact E2.
    - cbn [Fexp] in *. lia. }
  assert (R : Rabs (rnd (a + b)) <= 2 * B).
  { apply abs_round_le_generic; [typeclasses eauto..|exact G2|]. now apply sum_bound. }
  unfold Rdiv. rewrite Rabs_mult, (Rabs_pos_eq (/ 2)) by lra. lra.
Qed.

Lemma format_998 : generic_format radix2 fexp64 (bpow radix2 998).
Proof. apply generic_format_bpow. cbn. lia. Qed.

Lemma median_is xs vs : Forall2 f64_is xs vs -> Forall (fun v => Rabs v <= bpow radix2 998) vs ->
  f64_is (median xs) (rounded_median vs).
Proof.
  intros H B. unfold median, rounded_median. rewrite <- (F2_len _ _ _ H).
  set (n := Z.of_nat (length xs)). pose proof (fsort_is xs vs H) as S.
  destruct (n mod 2 =? 1)%Z; [now apply nth_is|].
  set (a := nth (Z.to_nat ((n - 1) / 2)) (fsort vs) 0). set (b := nth (Z.to_nat (n / 2)) (fsort vs) 0).
  assert (Ba : Rabs a <= bpow radix2 998) by (apply nth_bound; [apply bpow_ge_0|exact B]).
  assert (Bb : Rabs b <= bpow radix2 998) by (apply nth_bound; [apply bpow_ge_0|exact B]).
  pose proof (sum_bound a b _ Ba Bb) as Bs. pose proof big_998 as K. pose proof (bpow_gt_0 radix2 998) as P.
  assert (R : Rabs (rnd (a + b)) <= bpow radix2 999).
  { apply abs_round_le_generic; [typeclasses eauto..|apply generic_format_bpow; cbn; lia|].
    change 999%Z with (1 + 998)%Z. rewrite bpow_plus. exact Bs. }
  apply div_is; [apply add_is; [now apply nth_is|now apply nth_is|lra]|apply (f64_ofZ_is 2); lia|lra|].
  unfold Rdiv. rewrite Rabs_mult, (Rabs_pos_eq (/ IZR 2)) by lra.
  assert (bpow radix2 999 <= bpow radix2 1000) by (apply bpow_le; lia). pose proof (Rabs_pos (rnd (a + b))). lra.
Qed.

Lemma np_max_is d ds dv dvs : f64_is d dv -> Forall2 f64_is ds dvs -> f64_is (np_max d ds) (np_max dv dvs).
Proof.
  intros Hd H. unfold np_max. revert d dv Hd. induction H as [|x v xs vs Hx H IH]; intros d dv Hd; [exact Hd|].
  cbn [fold_left]. apply IH. rewrite (ltb_R d x dv v Hd Hx). now destruct (fltb dv v).
Qed.

Lemma bad_model_double xs vs t tv : xs <> [] -> Forall2 f64_is xs vs -> f64_is t tv ->
  Forall (fun v => Rabs v <= bpow radix2 998) vs ->
  exists b, bad_piff_model xs t = Ok b /\
    (b = true <-> exists v, In v vs /\ tv < Rabs (rnd (v - rounded_median vs))).
Proof.
  intros Hne H Ht B. pose proof (median_is xs vs H B) as Hm.
  pose proof (rounded_median_bound vs _ (bpow_ge_0 _ _) format_998 B) as Bm.
  unfold bad_piff_model. destruct xs as [|x xs]; [congruence|].
  assert (E : existsb (fun v => negb (@ffinite f64 F64Ops v)) (x :: xs) = false).
  { clear -H. induction H as [|y w ys ws Hy _ IH]; [reflexivity|]. cbn [existsb]. rewrite IH.
    destruct Hy as (_ & F & _). change (@ffinite f64 F64Ops y) with (f64_finite y). now rewrite F. }
  rewrite E. set (m := median (x :: xs)) in *. set (mv := rounded_median vs) in *.
  assert (D : Forall2 f64_is (map (fun v => fabs (fsub v m)) (x :: xs)) (map (fun v => Rabs (rnd (v - mv))) vs)).
  { clear E Hne. clearbody m mv. induction H as [|y w ys ws Hy H IH]; [constructor|]. inversion B as [|? ? B1 B2]; subst.
    cbn [map]. constructor; [|now apply IH]. apply abs_is, sub_is; [exact Hy|exact Hm|].
    eapply Rle_trans; [apply Rabs_triang|]. rewrite Rabs_Ropp. pose proof big_998. pose proof (bpow_gt_0 radix2 998). lra. }
  destruct vs as [|v vs]; [inversion H|]. cbn [map] in *. inversion D as [|? ? ? ? D1 D2]; subst.
  pose proof (ltb_R _ _ _ _ Ht (np_max_is _ _ _ _ D1 D2)) as L.
  eexists. split; [reflexivity|].
  match goal with |- ?b = true <-> _ => change (b = fltb tv (np_max (Rabs (rnd (v - mv))) (map (fun v => Rabs (rnd (v - mv))) vs))) in L end.
  rewrite L, fltb_R, max_R. clear L.
  change (Rabs (rnd (v - mv)) :: map (fun v => Rabs (rnd (v - mv))) vs)
    with (map (fun v => Rabs (rnd (v - mv))) (v :: vs)).
  split.
  - intros (d & Hd & L). apply in_map_iff in Hd as (w & <- & Hw). eauto.
  - intros (w & Hw & L). eexists. split; [apply in_map_iff; exists w; split; [reflexivity|exact Hw]|exact L].
Qed.

(** The rounded median is near the median. *)
Lemma rounded_median_near vs B : Forall (fun v => Rabs v <= B) vs -> bpow radix2 (-900) <= B ->
  Forall (generic_format radix2 fexp64) vs ->
  Rabs (rounded_median vs - median vs) <= 3 * uro * B /\
  (Z.odd (Z.of_nat (length vs)) = true -> rounded_median vs = median vs).
Proof.
  intros H HB G. pose proof uro_pos as U. pose proof (bpow_gt_0 radix2 (-900)) as P.
  unfold rounded_median, median. set (n := Z.of_nat (length vs)).
  change (@fzero R ROps) with 0.
  set (a := nth (Z.to_nat ((n - 1) / 2)) (fsort vs) 0). set (b := nth (Z.to_nat (n / 2)) (fsort vs) 0).
  assert (Ba : Rabs a <= B) by (apply nth_bound; [lra|exact H]).
  assert (Bb : Rabs b <= B) by (apply nth_bound; [lra|exact H]).
  assert (PU : 0 <= 3 * uro * B) by nra.
  destruct (Z.eqb_spec (n mod 2) 1) as [E|E].
  - split; [|reflexivity]. rewrite Rminus_diag_eq, Rabs_R0 by reflexivity. exact PU.
  - split; [|intros O; rewrite Zmod_odd, O in E; congruence].
    change (fdiv (fadd a b) (fofZ 2)) with ((a + b) / 2).
    assert (Gn : forall k, generic_format radix2 fexp64 (nth k (fsort vs) 0)).
    { intros k. apply (Permutation_Forall (fsort_perm vs)) in G.
      destruct (Nat.lt_ge_cases k (length (fsort vs))) as [K|K].
      - apply (proj1 (Forall_forall _ _) G). now apply nth_In.
      - rewrite nth_overflow by exact K. apply generic_format_0. }
    destruct (add_error a b (Gn _) (Gn _)) as (e & He & Ee). pose proof err_le_uro as EU.
    pose proof (sum_bound a b B Ba Bb) as Bs.
    assert (D1 : Rabs (rnd (a + b) - (a + b)) <= uro * (2 * B)).
    { rewrite Ee. replace ((a + b) * (1 + e) - (a + b)) with (e * (a + b)) by ring. rewrite Rabs_mult.
      apply Rmult_le_compat; try apply Rabs_pos; lra. }
    set (q := rnd (a + b)) in *.
    assert (U1 : uro <= / 16) by (unfold uro; change (/ 16) with (bpow radix2 (-4)); apply bpow_le; lia).
    assert (D0 : uro * B <= / 16 * B) by (apply Rmult_le_compat_r; lra).
    assert (Bq : Rabs (q / 2) <= (1 + / 8) * B).
    { unfold Rdiv. rewrite Rabs_mult, (Rabs_pos_eq (/ 2)) by lra.
      assert (Rabs q <= Rabs (q - (a + b)) + Rabs (a + b)).
      { replace q with ((q - (a + b)) + (a + b)) at 1 by ring. apply Rabs_triang. }
      lra. }
    pose proof (rnd_fine (q / 2)) as D2.
    assert (HE : eta <= uro * B / 16).
    { apply Rle_trans with (uro * bpow radix2 (-900) / 16).
      - unfold eta, uro, Rdiv. change (/ 16) with (bpow radix2 (-4)). rewrite <- !bpow_plus. apply bpow_le. lia.
      - apply Rmult_le_compat_r; [lra|]. apply Rmult_le_compat_l; lra. }
    assert (D3 : uro * Rabs (q / 2) <= uro * ((1 + / 8) * B)) by (apply Rmult_le_compat_l; lra).
    replace (rnd (q / 2) - (a + b) / 2) with ((rnd (q / 2) - q / 2) + (q - (a + b)) * / 2) by (unfold Rdiv; ring).
    eapply Rle_trans; [apply Rabs_triang|]. rewrite Rabs_mult, (Rabs_pos_eq (/ 2)) by lra. lra.
Qed.

(** Comparing a rounded difference with a double. *)
Lemma rounded_gt (d t : R) : generic_format radix2 fexp64 t -> t < Rabs (rnd d) -> t < Rabs d.
Proof.
  intros G H. destruct (Rlt_or_le t (Rabs d)) as [K|K]; [exact K|]. exfalso.
  assert (Rabs (rnd d) <= t) by (apply abs_round_le_generic; [typeclasses eauto..|exact G|exact K]). lra.
Qed.

Lemma rounded_far (d t B : R) : Rabs d <= 4 * B -> bpow radix2 (-900) <= B -> t + 5 * uro * B < Rabs d ->
  t < Rabs (rnd d).
Proof.
  intros Bd HB H. pose proof (rnd_fine d) as D. pose proof uro_pos as U.
  assert (HE : eta <= uro * B / 16).
  { apply Rle_trans with (uro * bpow radix2 (-900) / 16).
    - unfold eta, uro, Rdiv. change (/ 16) with (bpow radix2 (-4)). rewrite <- !bpow_plus. apply bpow_le. lia.
    - apply Rmult_le_compat_r; [lra|]. apply Rmult_le_compat_l; lra. }
  assert (D3 : uro * Rabs d <= uro * (4 * B)) by (apply Rmult_le_compat_l; lra).
  assert (T : Rabs d <= Rabs (rnd d) + Rabs (rnd d - d)).
  { replace d with (rnd d - (rnd d - d)) at 1 by ring. eapply Rle_trans; [apply Rabs_triang|]. rewrite Rabs_Ropp. lra. }
  pose proof (bpow_gt_0 radix2 (-900)). assert (0 < uro * B) by nra. lra.
Qed.

(** Order of the samples. *)
Lemma sorted_unique s : StronglySorted Rle s -> forall s', StronglySorted Rle s' -> Permutation s s' -> s = s'.
Proof.
  induction s as [|x s IH]; intros S s' S' Q.
  - now apply Permutation_nil in Q.
  - destruct s' as [|y s']; [apply Permutation_sym, Permutation_nil in Q; discriminate|].
    apply StronglySorted_inv in S as [S1 S2]. apply StronglySorted_inv in S' as [S1' S2'].
    assert (Hxy : x = y).
    { assert (Hx : In x (y :: s')) by (apply (Permutation_in _ Q); left; reflexivity).
      assert (Hy : In y (x :: s)) by (apply (Permutation_in _ (Permutation_sym Q)); left; reflexivity).
      assert (L1 : y <= x) by (destruct Hx as [->|Hx]; [lra|exact (proj1 (Forall_forall _ _) S2' _ Hx)]).
      assert (L2 : x <= y) by (destruct Hy as [->|Hy]; [lra|exact (proj1 (Forall_forall _ _) S2 _ Hy)]).
      lra. }
    subst y. f_equal. apply IH; [exact S1|exact S1'|]. now apply Permutation_cons_inv in Q.
Qed.

Lemma rounded_median_perm vs vs' : Permutation vs vs' -> rounded_median vs = rounded_median vs'.
Proof.
  intros P. unfold rounded_median. rewrite (Permutation_length P).
  assert (E : fsort vs = fsort vs'); [|now rewrite E].
  apply sorted_unique; try apply fsort_sorted. rewrite <- !fsort_perm. exact P.
Qed.
