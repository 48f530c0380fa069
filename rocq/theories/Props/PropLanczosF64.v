(** C19 and C20 in double arithmetic. *)
From Coq Require Import ZArith List Bool Lia Reals Lra SpecFloat.
From Flocq Require Import Core.
From Coq Require Import List.
From Verif Require Import Lib.Base Lib.Floats Model.Lanczos Spec.FloatSpec Spec.LanczosSpec Spec.SumSpec
  Proofs.F64Facts Proofs.LanczosProofs Proofs.SincProofs Proofs.LanczosF64 Props.PropLanczos.
Import ListNotations.
Open Scope R_scope.

(** C19: for every double in [-3, 3] the value computed in double arithmetic is
    finite, within 2^-39 of the value of the same formula over the reals, and
    within 1.0501e-6 of the true sinc. *)
Theorem C19_accuracy_double :
  forall (x : f64) (xv : R), f64_is x xv -> Rabs xv <= 3 ->
  exists v, f64_is (sinc_pade x) v /\
    Rabs (v - sinc_pade xv) <= bpow radix2 (-39) /\
    Rabs (v - true_sinc xv) <= 10501 / 10 ^ 10.
Proof.
  intros x xv Hx B.
  destruct (sinc_near x xv xv Hx B B) as (v & Hv & E).
  { rewrite Rminus_diag_eq, Rabs_R0 by reflexivity. rewrite u_val. lra. }
  exists v. split; [exact Hv|]. split; [exact E|].
  pose proof (sinc_close xv B) as C.
  replace (v - true_sinc xv) with ((v - sinc_pade xv) + (sinc_pade xv - true_sinc xv)) by ring.
  eapply Rle_trans; [apply Rabs_triang|]. lra.
Qed.

(** C19: the kernel, at every double distance of at most the kernel size: still
    better than the documented 1.03019e-05. *)
Theorem C19_kernel_accuracy_double :
  forall (a : Z) (d : f64) (dv : R), (1 <= a <= 3)%Z -> f64_is d dv -> Rabs dv <= IZR a ->
  exists v, f64_is (lanczos_kernel a d) v /\
    Rabs (v - true_sinc dv * true_sinc (dv / IZR a)) <= 2201 / 10 ^ 9 /\
    2201 / 10 ^ 9 < 103019 / 10 ^ 10.
Proof.
  intros a d dv Ha Hd B. assert (A13 : 1 <= IZR a <= 3) by (split; apply IZR_le; lia).
  destruct (kernel_near a dv dv d Ha Hd B B) as (v & Hv & E).
  { rewrite Rminus_diag_eq, Rabs_R0 by reflexivity. rewrite u_val. lra. }
  exists v. split; [exact Hv|]. split; [|lra].
  pose proof (kernel_close a dv ltac:(lia) ltac:(lra)) as C.
  match goal with |- Rabs (?p - ?q) <= _ =>
    replace (p - q) with ((p - lanczos_kernel a dv) + (lanczos_kernel a dv - q)) by ring end.
  eapply Rle_trans; [apply Rabs_triang|]. lra.
Qed.

(** C20: if the pixels that are in the window are finite and at most [M] in size,
    the value computed in double arithmetic is the kernel sum up to 2^-28 M. *)
Theorem C20_value_is_the_kernel_sum_double :
  forall (im : img f64) (val : Z -> Z -> R) (a : Z) (y x : f64) (yv xv M : R),
  (1 <= a <= 3)%Z -> f64_is y yv -> f64_is x xv -> Rabs yv <= 2 ^ 52 -> Rabs xv <= 2 ^ 52 ->
  0 <= M <= bpow radix2 900 ->
  (forall r c, inb im r c -> in_window a yv r -> in_window a xv c ->
     f64_is (px im r c) (val r c) /\ Rabs (val r c) <= M) ->
  exists v w e S,
    lanczos_point im a y x = Ok (v, e) /\ f64_is v w /\
    window_sum (nrows im) (ncols im) a yv xv
      (fun r c => val r c *
         ((sinc_pade (xv - IZR c) * sinc_pade ((xv - IZR c) / IZR a)) *
          (sinc_pade (yv - IZR r) * sinc_pade ((yv - IZR r) / IZR a)))) S /\
    Rabs (w - S) <= bpow radix2 (-28) * M + bpow radix2 (-1000).
Proof.
  intros im val a y x yv xv M Ha Hy Hx By Bx HM Hp.
  destruct (point_near im val a y x yv xv M Ha Hy Hx) as (v & e & S & E & W & (w & Hw & Ew)).
  - lra.
  - lra.
  - exact HM.
  - intros r c Hr Hc. apply Hp. split; assumption.
  - exists v, w, e, S. split; [exact E|]. split; [exact Hw|]. split; [exact W|].
    change (bpow radix2 (-28)) with (/ 268435456). lra.
Qed.

(** ... and the sum with the true Lanczos kernel up to 1.8e-4 M. *)
Theorem C20_value_is_the_true_kernel_sum_double :
  forall (im : img f64) (val : Z -> Z -> R) (a : Z) (y x : f64) (yv xv M : R),
  (1 <= a <= 3)%Z -> f64_is y yv -> f64_is x xv -> Rabs yv <= 2 ^ 52 -> Rabs xv <= 2 ^ 52 ->
  0 <= M <= bpow radix2 900 ->
  (forall r c, inb im r c -> in_window a yv r -> in_window a xv c ->
     f64_is (px im r c) (val r c) /\ Rabs (val r c) <= M) ->
  exists v w e S,
    lanczos_point im a y x = Ok (v, e) /\ f64_is v w /\
    window_sum (nrows im) (ncols im) a yv xv
      (fun r c => val r c *
         ((true_sinc (xv - IZR c) * true_sinc ((xv - IZR c) / IZR a)) *
          (true_sinc (yv - IZR r) * true_sinc ((yv - IZR r) / IZR a)))) S /\
    Rabs (w - S) <= 18 / 10 ^ 5 * M + bpow radix2 (-1000).
Proof.
  intros im val a y x yv xv M Ha Hy Hx By Bx HM Hp.
  assert (A13 : 1 <= IZR a <= 3) by (split; apply IZR_le; lia).
  destruct (C20_value_is_the_kernel_sum_double im val a y x yv xv M Ha Hy Hx By Bx HM Hp)
    as (v & w & e & S & E & Hw & (ps & Nd & Hps & ES) & Ew).
  set (g := fun r c => val r c * ((true_sinc (xv - IZR c) * true_sinc ((xv - IZR c) / IZR a)) *
          (true_sinc (yv - IZR r) * true_sinc ((yv - IZR r) / IZR a)))).
  exists v, w, e, (LanczosSpec.rsum (map (fun p => g (fst p) (snd p)) ps)).
  split; [exact E|]. split; [exact Hw|]. split; [exists ps; auto|].
  assert (Lp : INR (length ps) <= 36).
  { assert (L : (length ps <= length (window_pix (nrows im) (ncols im) (Zfloor yv) (Zfloor xv) a))%nat).
    { apply NoDup_incl_length; [exact Nd|]. intros [r c] Hin. apply window_pix_spec, Hps, Hin. }
    pose proof (window_len (nrows im) (ncols im) (Zfloor yv) (Zfloor xv) a Ha) as L'.
    change 36 with (IZR (Z.of_nat 36)). rewrite <- INR_IZR_INZ. apply le_INR. lia. }
  match type of ES with S = LanczosSpec.rsum (map ?f ps) => set (h := f) in ES end.
  assert (D : Rabs (RoundSum.rsum (map h ps) - RoundSum.rsum (map (fun p => g (fst p) (snd p)) ps))
              <= INR (length ps) * (M * (49 / 10 ^ 7))).
  { apply rsum_diff. intros [r c] Hin. apply Hps in Hin as (Hr & Hc & Wr & Wc).
    destruct (Hp r c (conj Hr Hc) Wr Wc) as [_ Bv]. unfold h, g. cbn [fst snd]. unfold in_window in *.
    assert (Dx : Rabs (xv - IZR c) <= IZR a) by (apply Rabs_le; lra).
    assert (Dy : Rabs (yv - IZR r) <= IZR a) by (apply Rabs_le; lra).
    pose proof (kernel_close a (xv - IZR c) ltac:(lia) ltac:(lra)) as Cx.
    pose proof (kernel_close a (yv - IZR r) ltac:(lia) ltac:(lra)) as Cy.
    pose proof (kernel_size a (yv - IZR r) Ha Dy) as Sy.
    unfold lanczos_kernel in Cx, Cy, Sy. cbn [fmul fdiv fofZ ROps] in Cx, Cy, Sy.
    set (kx := sinc_pade (xv - IZR c) * sinc_pade ((xv - IZR c) / IZR a)) in *.
    set (ky := sinc_pade (yv - IZR r) * sinc_pade ((yv - IZR r) / IZR a)) in *.
    set (tx := true_sinc (xv - IZR c) * true_sinc ((xv - IZR c) / IZR a)) in *.
    set (ty := true_sinc (yv - IZR r) * true_sinc ((yv - IZR r) / IZR a)) in *.
    assert (St : Rabs tx <= 1).
    { unfold tx. rewrite Rabs_mult, <- (Rmult_1_l 1).
      apply Rmult_le_compat; auto using Rabs_pos, true_sinc_le_1. }
    replace (val r c * (kx * ky) - val r c * (tx * ty))
      with (val r c * ((kx - tx) * ky + tx * (ky - ty))) by ring.
    rewrite Rabs_mult. apply Rmult_le_compat; auto using Rabs_pos.
    eapply Rle_trans; [apply Rabs_triang|]. rewrite !Rabs_mult.
    assert (Rabs (kx - tx) * Rabs ky <= 22 / 10 ^ 7 * (121 / 100))
      by (apply Rmult_le_compat; auto using Rabs_pos).
    assert (Rabs tx * Rabs (ky - ty) <= 1 * (22 / 10 ^ 7)) by (apply Rmult_le_compat; auto using Rabs_pos).
    lra. }
  rewrite (rsum_same (map h ps)), (rsum_same (map (fun p => g (fst p) (snd p)) ps)), <- ES in D.
  assert (D2 : INR (length ps) * (M * (49 / 10 ^ 7)) <= 36 * (M * (49 / 10 ^ 7)))
    by (apply Rmult_le_compat_r; lra).
  match goal with |- Rabs (w - ?s) <= _ => replace (w - s) with ((w - S) + (S - s)) by ring end.
  eapply Rle_trans; [apply Rabs_triang|].
  change (bpow radix2 (-28)) with (/ 268435456) in Ew. lra.
Qed.

(** C20: the functions are compiled with fastmath, so the compiler may rearrange them. However
    the kernel values are computed, if they are within 2^-37 of the formula, and in whatever
    order the pixels of the window are visited, the three factors multiplied and the terms
    added, the result is the kernel sum up to the same error; ... *)
Theorem C20_any_order_double :
  forall (im : img f64) (val : Z -> Z -> R) (a : Z) (yv xv M : R) (ky kx : Z -> f64)
         (ps : list (Z * Z)) (ts : list f64) (s : f64),
  (1 <= a <= 3)%Z -> 0 <= M <= bpow radix2 900 ->
  (forall r c, inb im r c -> in_window a yv r -> in_window a xv c ->
     f64_is (px im r c) (val r c) /\ Rabs (val r c) <= M) ->
  (forall r, in_window a yv r -> exists k, f64_is (ky r) k /\
     Rabs (k - sinc_pade (yv - IZR r) * sinc_pade ((yv - IZR r) / IZR a)) <= bpow radix2 (-37)) ->
  (forall c, in_window a xv c -> exists k, f64_is (kx c) k /\
     Rabs (k - sinc_pade (xv - IZR c) * sinc_pade ((xv - IZR c) / IZR a)) <= bpow radix2 (-37)) ->
  NoDup ps ->
  (forall r c, In (r, c) ps <-> inb im r c /\ in_window a yv r /\ in_window a xv c) ->
  Forall2 (fun p t => product3 (px im (fst p) (snd p)) (kx (snd p)) (ky (fst p)) t) ps ts ->
  adds ts s ->
  exists w S, f64_is s w /\
    window_sum (nrows im) (ncols im) a yv xv
      (fun r c => val r c *
         ((sinc_pade (xv - IZR c) * sinc_pade ((xv - IZR c) / IZR a)) *
          (sinc_pade (yv - IZR r) * sinc_pade ((yv - IZR r) / IZR a)))) S /\
    Rabs (w - S) <= bpow radix2 (-28) * M + bpow radix2 (-1000).
Proof.
  intros im val a yv xv M ky kx ps ts s Ha HM Hp Hky Hkx Nd Hps HT Hs.
  assert (L : (length ps <= 36)%nat).
  { etransitivity; [|apply (window_len (nrows im) (ncols im) (Zfloor yv) (Zfloor xv) a Ha)].
    apply NoDup_incl_length; [exact Nd|]. intros [r c] Hin. apply window_pix_spec.
    apply Hps in Hin. unfold inb in Hin. tauto. }
  destruct (window_near im val a yv xv M ky kx ps ts s Ha HM) as (w & Hw & Ew).
  - intros r c. apply Hps.
  - exact L.
  - exact Hp.
  - exact Hky.
  - exact Hkx.
  - exact HT.
  - exact Hs.
  - exists w, (LanczosSpec.rsum (map (fun p => val (fst p) (snd p) * kern2 a yv xv p) ps)).
    split; [exact Hw|]. split.
    + exists ps. split; [exact Nd|]. split; [intros r c; rewrite Hps; unfold inb; tauto|]. reflexivity.
    + rewrite <- rsum_same. change (bpow radix2 (-28)) with (/ 268435456). lra.
Qed.

(** ... and the order of the source is one of these. *)
Theorem C20_source_order_double :
  forall (im : img f64) (a : Z) (y x : f64) (yv xv : R),
  (1 <= a <= 3)%Z -> f64_is y yv -> f64_is x xv -> Rabs yv <= 2 ^ 52 -> Rabs xv <= 2 ^ 52 ->
  exists v e (ky kx : Z -> f64) ps ts,
    lanczos_point im a y x = Ok (v, e) /\
    (forall r, in_window a yv r -> exists k, f64_is (ky r) k /\
       Rabs (k - sinc_pade (yv - IZR r) * sinc_pade ((yv - IZR r) / IZR a)) <= bpow radix2 (-37)) /\
    (forall c, in_window a xv c -> exists k, f64_is (kx c) k /\
       Rabs (k - sinc_pade (xv - IZR c) * sinc_pade ((xv - IZR c) / IZR a)) <= bpow radix2 (-37)) /\
    NoDup ps /\
    (forall r c, In (r, c) ps <-> inb im r c /\ in_window a yv r /\ in_window a xv c) /\
    Forall2 (fun p t => product3 (px im (fst p) (snd p)) (kx (snd p)) (ky (fst p)) t) ps ts /\
    adds ts v.
Proof.
  intros im a y x yv xv Ha Hy Hx By Bx.
  destruct (point_adds im a y x yv xv Hy Hx) as (v & e & ts & E & A & HT).
  exists v, e, (fun r => lanczos_kernel a (fsub y (fofZ r))), (fun c => lanczos_kernel a (fsub x (fofZ c))),
    (window_pix (nrows im) (ncols im) (Zfloor yv) (Zfloor xv) a), ts.
  split; [exact E|]. split.
  { intros r Wr. apply (axis_near a y yv r Ha Hy); [lra|exact Wr]. }
  split.
  { intros c Wc. apply (axis_near a x xv c Ha Hx); [lra|exact Wc]. }
  split; [apply NoDup_window_pix|]. split; [|split; assumption].
  intros r c. rewrite window_pix_spec. unfold inb. tauto.
Qed.

(** C20: at integer positions the pixel value comes back up to a relative error
    of 2^-45, whatever the neighbouring pixels are, as long as they are finite;
    off the image the value is zero. *)
Theorem C20_integer_positions_double :
  forall (im : img f64) (val : Z -> Z -> R) (a r c : Z) (y x : f64),
  (1 <= a <= 3)%Z -> f64_is y (IZR r) -> f64_is x (IZR c) ->
  (Z.abs r <= 2 ^ 52)%Z -> (Z.abs c <= 2 ^ 52)%Z ->
  (forall i j, inb im i j -> in_window a (IZR r) i -> in_window a (IZR c) j ->
     f64_is (px im i j) (val i j)) ->
  exists v e, lanczos_point im a y x = Ok (v, e) /\
    (inb im r c -> Rabs (val r c) <= bpow radix2 900 ->
     exists w, f64_is v w /\
       Rabs (w - val r c) <= bpow radix2 (-45) * Rabs (val r c) + bpow radix2 (-1000)) /\
    (~ inb im r c -> f64_is v 0).
Proof.
  intros im val a r c y x Ha Hy Hx Br Bc Hp.
  destruct (point_integer_near im val a r c y x Ha Hy Hx Br Bc) as (v & e & E & I & O).
  { intros i j Hi Hj. apply Hp. split; assumption. }
  exists v, e. split; [exact E|]. split; [|exact O].
  intros Hin B. destruct (I Hin B) as (w & Hw & Ew). exists w. split; [exact Hw|].
  change (bpow radix2 (-45)) with (/ 35184372088832). lra.
Qed.

(** Without that last hypothesis it fails: an infinite neighbour, which has
    weight zero, makes the value not a number. *)
Theorem C20_integer_positions_need_finite_neighbours :
  exists (im : img f64) (v : f64) (e : bool),
  inb im 0 0 /\ px im 0 0 = f64_ofZ 7 /\ px im 0 1 = S754_infinity false /\
  lanczos_point im 3 (f64_ofZ 0) (f64_ofZ 0) = Ok (v, e) /\ fnan v = true.
Proof.
  exists (of_rows (f64_ofZ 0) [[f64_ofZ 7; S754_infinity false]]).
  destruct (lanczos_point (of_rows (f64_ofZ 0) [[f64_ofZ 7; S754_infinity false]]) 3 (f64_ofZ 0) (f64_ofZ 0))
    as [[v e]|] eqn:E; [|vm_compute in E; discriminate E].
  exists v, e. split; [unfold inb; cbn; lia|]. split; [reflexivity|]. split; [reflexivity|]. split; [reflexivity|].
  vm_compute in E. inversion E. reflexivity.
Qed.

(** Concrete: a 2 x 3 image with values up to 6, at (0.5, 1.25) and at (1, 2). *)
Definition image23 : img f64 :=
  of_rows (f64_ofZ 0) [[f64_ofZ 1; f64_ofZ 2; f64_ofZ 3]; [f64_ofZ 4; f64_ofZ 5; f64_ofZ 6]].

Lemma image23_pixels : forall r c, inb image23 r c -> f64_is (px image23 r c) (IZR (3 * r + c + 1)).
Proof.
  intros r c [Hr Hc]. cbn in Hr, Hc.
  assert (R2 : r = 0%Z \/ r = 1%Z) by lia. assert (C3 : c = 0%Z \/ c = 1%Z \/ c = 2%Z) by lia.
  destruct R2 as [-> | ->], C3 as [-> | [-> | ->]]; apply f64_ofZ_is; cbn; lia.
Qed.

Example C20_value_double_example :
  f64_is (fdec 1 2) (1 / 2) /\ f64_is (fdec 5 4) (5 / 4) /\
  (forall r c, inb image23 r c -> in_window 3 (1 / 2) r -> in_window 3 (5 / 4) c ->
     f64_is (px image23 r c) (IZR (3 * r + c + 1)) /\ Rabs (IZR (3 * r + c + 1)) <= 6).
Proof.
  split; [|split].
  - replace (1 / 2) with (4503599627370496 * / 9007199254740992) by lra.
    exact (finite_is false 4503599627370496 (-53) eq_refl).
  - replace (5 / 4) with (5629499534213120 * / 4503599627370496) by lra.
    exact (finite_is false 5629499534213120 (-52) eq_refl).
  - intros r c H _ _. split; [apply image23_pixels, H|].
    destruct H as [Hr Hc]. cbn in Hr, Hc. rewrite <- abs_IZR. apply IZR_le. lia.
Qed.

Example C20_integer_double_example :
  inb image23 1 2 /\ f64_is (f64_ofZ 1) 1 /\ f64_is (f64_ofZ 2) 2 /\
  (forall i j, inb image23 i j -> in_window 3 1 i -> in_window 3 2 j ->
     f64_is (px image23 i j) (IZR (3 * i + j + 1))).
Proof.
  split; [unfold inb; cbn; lia|]. split; [apply f64_ofZ_is; cbn; lia|].
  split; [apply f64_ofZ_is; cbn; lia|]. intros i j H _ _. apply image23_pixels, H.
Qed.

Print Assumptions C19_accuracy_double.
Print Assumptions C19_kernel_accuracy_double.
Print Assumptions C20_value_is_the_kernel_sum_double.
Print Assumptions C20_value_is_the_true_kernel_sum_double.
Print Assumptions C20_any_order_double.
Print Assumptions C20_source_order_double.
Print Assumptions C20_integer_positions_double.
Print Assumptions C20_integer_positions_need_finite_neighbours.
