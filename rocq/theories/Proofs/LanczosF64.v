(** The Lanczos kernel in double arithmetic. *)
From Coq Require Import ZArith List Bool Lia Reals Lra SpecFloat.
From Flocq Require Import Core BinarySingleNaN.
From Coq Require Import List.
From Verif Require Import Lib.Base Lib.Floats Model.Lanczos Spec.FloatSpec Spec.LanczosSpec Spec.SumSpec
  Proofs.BaseFacts Proofs.F64Facts Proofs.RoundSum Proofs.NpSum Proofs.LanczosProofs Proofs.SincProofs.
Import ListNotations.
Open Scope R_scope.

#[local] Instance Hprec : Prec_gt_0 53 := eq_refl _.
#[local] Instance Hmax : Prec_lt_emax 53 1024 := eq_refl _.
#[local] Instance fexp64_ok : Valid_exp fexp64 := fexp_correct 53 1024 _.

Notation u := uro (only parsing).

Lemma u_val : uro = / 9007199254740992.
Proof. reflexivity. Qed.

(** [x] is finite and its value differs from [v] by at most [d]. *)
Definition near (x : f64) (v d : R) : Prop := exists v', f64_is x v' /\ Rabs (v' - v) <= d.

Lemma near_weaken x v d d' : near x v d -> d <= d' -> near x v d'.
Proof. intros (v' & H & E) L. exists v'. split; [exact H|lra]. Qed.

Lemma is_near x v : f64_is x v -> near x v 0.
Proof. intros H. exists v. split; [exact H|]. rewrite Rminus_diag_eq, Rabs_R0 by reflexivity. lra. Qed.

Lemma rnd_abs x : Rabs (rnd x - x) <= u * (Rabs x + u).
Proof.
  destruct (rnd_error_gen x) as (e & h & He & Hh & ->). pose proof err_le_uro. pose proof uro_pos.
  replace (x * (1 + e) + h - x) with (e * x + h) by ring.
  eapply Rle_trans; [apply Rabs_triang|]. rewrite Rabs_mult, Rmult_plus_distr_l.
  apply Rplus_le_compat; [apply Rmult_le_compat_r; [apply Rabs_pos|lra]|].
  eapply Rle_trans; [exact Hh|]. unfold uro. rewrite <- bpow_plus. apply bpow_le. lia.
Qed.

Lemma abs_near v v' d : Rabs (v' - v) <= d -> Rabs v' <= Rabs v + d.
Proof.
  intros H. replace v' with (v + (v' - v)) by ring. eapply Rle_trans; [apply Rabs_triang|]. lra.
Qed.

Lemma big_1000 : 1152921504606846976 <= bpow radix2 1000.
Proof.
  apply Rle_trans with (bpow radix2 60); [right; reflexivity|apply bpow_le; lia].
Qed.

Lemma mul_near x y v w d e B C : near x v d -> near y w e -> Rabs v <= B -> Rabs w <= C ->
  (B + d) * (C + e) <= 1152921504606846976 ->
  near (SFmul 53 1024 x y) (v * w) (B * e + C * d + d * e + u * ((B + d) * (C + e) + u)).
Proof.
  intros (v' & Hv & Ev) (w' & Hw & Ew) Bv Bw Hb.
  pose proof (abs_near _ _ _ Ev) as A1. pose proof (abs_near _ _ _ Ew) as A2.
  pose proof (Rabs_pos v'). pose proof (Rabs_pos w'). pose proof (Rabs_pos v). pose proof (Rabs_pos w).
  assert (D0 : 0 <= d) by (pose proof (Rabs_pos (v' - v)); lra).
  assert (E0 : 0 <= e) by (pose proof (Rabs_pos (w' - w)); lra).
  assert (P : Rabs (v' * w') <= (B + d) * (C + e)).
  { rewrite Rabs_mult. apply Rmult_le_compat; lra. }
  exists (rnd (v' * w')). split.
  - apply mul_is; [exact Hv|exact Hw|]. pose proof big_1000. lra.
  - replace (rnd (v' * w') - v * w) with ((rnd (v' * w') - v' * w') + (v' * w' - v * w)) by ring.
    eapply Rle_trans; [apply Rabs_triang|]. pose proof (rnd_abs (v' * w')) as R1. pose proof uro_pos.
    assert (T : Rabs (v' * w' - v * w) <= B * e + C * d + d * e).
    { replace (v' * w' - v * w) with (v * (w' - w) + w * (v' - v) + (v' - v) * (w' - w)) by ring.
      eapply Rle_trans; [apply Rabs_triang|]. apply Rplus_le_compat.
      - eapply Rle_trans; [apply Rabs_triang|]. rewrite !Rabs_mult.
        apply Rplus_le_compat; apply Rmult_le_compat; auto using Rabs_pos.
      - rewrite Rabs_mult. apply Rmult_le_compat; auto using Rabs_pos. }
    assert (u * (Rabs (v' * w') + u) <= u * ((B + d) * (C + e) + u)) by (apply Rmult_le_compat_l; lra).
    lra.
Qed.

(** Division by a number that stays away from zero. *)
Lemma div_near x y v w d e Q m : near x v d -> near y w e -> Rabs (v / w) <= Q -> 0 < m -> m + e <= w ->
  (Q * e + d) / m + Q <= 1152921504606846976 ->
  near (SFdiv 53 1024 x y) (v / w) ((Q * e + d) / m + u * ((Q * e + d) / m + Q + u)).
Proof.
  intros (v' & Hv & Ev) (w' & Hw & Ew) Bq Hm Hw0 Hb.
  assert (E0 : 0 <= e) by (pose proof (Rabs_pos (w' - w)); lra).
  assert (D0 : 0 <= d) by (pose proof (Rabs_pos (v' - v)); lra).
  assert (Q0 : 0 <= Q) by (pose proof (Rabs_pos (v / w)); lra).
  assert (W' : m <= w') by (apply Rabs_le_inv in Ew; lra).
  assert (T : Rabs (v' / w' - v / w) <= (Q * e + d) / m).
  { replace (v' / w' - v / w) with ((v / w * (w - w') + (v' - v)) / w') by (field; lra).
    unfold Rdiv at 1. rewrite Rabs_mult, Rabs_inv, (Rabs_pos_eq w') by lra.
    apply Rmult_le_compat; [apply Rabs_pos|left; apply Rinv_0_lt_compat; lra| |apply Rinv_le; lra].
    eapply Rle_trans; [apply Rabs_triang|]. apply Rplus_le_compat; [|exact Ev].
    rewrite Rabs_mult. apply Rmult_le_compat; auto using Rabs_pos. rewrite Rabs_minus_sym. exact Ew. }
  pose proof (abs_near _ _ _ T) as A.
  exists (rnd (v' / w')). split.
  - apply div_is; [exact Hv|exact Hw|lra|]. pose proof big_1000. lra.
  - replace (rnd (v' / w') - v / w) with ((rnd (v' / w') - v' / w') + (v' / w' - v / w)) by ring.
    eapply Rle_trans; [apply Rabs_triang|]. pose proof (rnd_abs (v' / w')) as R1. pose proof uro_pos.
    assert (u * (Rabs (v' / w') + u) <= u * ((Q * e + d) / m + Q + u)) by (apply Rmult_le_compat_l; lra).
    lra.
Qed.

(** Subtraction of a double. *)
Lemma sub_is x y v w : f64_is x v -> f64_is y w -> Rabs (v - w) <= bpow radix2 1000 ->
  f64_is (SFsub 53 1024 x y) (rnd (v - w)).
Proof.
  intros Hx Hy Hb.
  apply f64_is_B in Hx as (bx & -> & Fx & <-). apply f64_is_B in Hy as (b & -> & Fy & <-).
  rewrite (SFsub_equiv bx b).
  generalize (Bminus_correct 53 1024 _ _ mode_NE bx b Fx Fy).
  rewrite Rlt_bool_true by now apply no_overflow.
  intros (H1 & H2 & _). cbn in H1. rewrite <- H1. now apply B_f64_is.
Qed.

Lemma sub_error v w : generic_format radix2 fexp64 v -> generic_format radix2 fexp64 w ->
  Rabs (rnd (v - w) - (v - w)) <= u * Rabs (v - w).
Proof.
  intros Hv Hw. destruct (add_error v (- w) Hv (generic_format_opp _ _ _ Hw)) as (e & He & E).
  unfold Rminus at 2 3. fold (Rminus v w) in E. change (v + - w) with (v - w) in *. rewrite E.
  replace ((v - w) * (1 + e) - (v - w)) with (e * (v - w)) by ring. rewrite Rabs_mult.
  apply Rmult_le_compat_r; [apply Rabs_pos|]. pose proof err_le_uro. lra.
Qed.

Lemma sub_near x y v w d B : near x v d -> f64_is y w -> Rabs (v - w) <= B ->
  B + d <= 1152921504606846976 ->
  near (SFsub 53 1024 x y) (v - w) (d + u * (B + d)).
Proof.
  intros (v' & Hv & Ev) Hw Hb Hs.
  assert (T : Rabs ((v' - w) - (v - w)) <= d) by (replace (v' - w - (v - w)) with (v' - v) by ring; exact Ev).
  pose proof (abs_near _ _ _ T) as A. pose proof uro_pos.
  exists (rnd (v' - w)). split.
  - apply sub_is; [exact Hv|exact Hw|]. pose proof big_1000. lra.
  - replace (rnd (v' - w) - (v - w)) with ((rnd (v' - w) - (v' - w)) + ((v' - w) - (v - w))) by ring.
    eapply Rle_trans; [apply Rabs_triang|].
    pose proof (sub_error v' w (fmt_of _ _ Hv) (fmt_of _ _ Hw)) as R1.
    assert (u * Rabs (v' - w) <= u * (B + d)) by (apply Rmult_le_compat_l; lra). lra.
Qed.

(** ** Polynomials *)
Fixpoint hsize (cs : list R) : R :=
  match cs with [] => 0 | c :: cs => Rabs c + u + 3 * hsize cs end.

Lemma hsize_nonneg cs : 0 <= hsize cs.
Proof. induction cs as [|c cs IH]; cbn [hsize]; [lra|]. pose proof (Rabs_pos c). pose proof uro_pos. lra. Qed.

Definition coef (c : f64) (v : R) : Prop := exists v', f64_is c v' /\ Rabs (v' - v) <= u * Rabs v.

Lemma horner_size (cs : list R) x : Rabs x <= 3 -> Rabs (horner cs x) <= hsize cs.
Proof.
  intros Hx. pose proof uro_pos. induction cs as [|c cs IH]; [cbn; rewrite Rabs_R0; lra|].
  destruct cs as [|d cs]; [cbn; lra|].
  change (horner (c :: d :: cs) x) with (c + x * horner (d :: cs) x).
  cbn [hsize] in IH |- *. eapply Rle_trans; [apply Rabs_triang|]. rewrite Rabs_mult.
  assert (Rabs x * Rabs (horner (d :: cs) x) <= 3 * (Rabs d + u + 3 * hsize cs))
    by (apply Rmult_le_compat; auto using Rabs_pos). lra.
Qed.

Lemma horner_near cs ds : Forall2 coef cs ds -> forall X x' x,
  f64_is X x' -> Rabs x' <= 3 -> Rabs x <= 3 -> Rabs (x' - x) <= 3 * u -> ds <> [] ->
  (1 + u) ^ (3 * length ds) * hsize ds <= 1152921504606846976 ->
  near (horner cs X) (horner ds x) (((1 + u) ^ (3 * length ds) - 1) * hsize ds).
Proof.
  intros HF X x' x HX Hx' Hx Hd. pose proof uro_pos as U.
  induction HF as [|c v cs ds (v' & Hc & Ec) HF IH]; intros NE Hb; [congruence|].
  destruct HF as [|c2 v2 cs ds Hc2 HF].
  - exists v'. split; [exact Hc|]. cbn [horner hsize length Nat.mul Nat.add]. eapply Rle_trans; [exact Ec|].
    pose proof (Rabs_pos v). cbn [pow]. rewrite Rmult_0_r.
    assert (u <= (1 + u) * ((1 + u) * ((1 + u) * 1)) - 1) by nra.
    apply Rmult_le_compat; lra.
  - set (ds' := v2 :: ds) in *. set (cs' := c2 :: cs) in *.
    assert (E1 : horner (c :: cs') X = SFadd 53 1024 c (SFmul 53 1024 X (horner cs' X))) by reflexivity.
    assert (E2 : horner (v :: ds') x = v + x * horner ds' x) by reflexivity.
    rewrite E1, E2.
    assert (L : (3 * length (v :: ds') = S (S (S (3 * length ds'))))%nat) by (cbn [length]; lia).
    rewrite L in *. set (k := (3 * length ds')%nat) in *.
    pose proof (pow_ge_1 k) as Pk. pose proof (hsize_nonneg ds') as H0.
    change (hsize (v :: ds')) with (Rabs v + u + 3 * hsize ds') in *.
    set (H := hsize ds') in *. pose proof (Rabs_pos v) as V0.
    cbn [pow] in *. set (P := (1 + u) ^ k) in *.
    assert (PH : P * H <= 1152921504606846976).
    { eapply Rle_trans; [|exact Hb]. assert (0 <= P * H) by (apply Rmult_le_pos; lra).
      assert (0 <= P * (Rabs v + u)) by (apply Rmult_le_pos; lra).
      replace ((1 + u) * ((1 + u) * ((1 + u) * P)) * (Rabs v + u + 3 * H))
        with ((1 + u) * (1 + u) * (1 + u) * (P * (Rabs v + u) + 3 * (P * H))) by ring.
      assert (1 <= (1 + u) * (1 + u) * (1 + u)) by nra. nra. }
    destruct (IH ltac:(discriminate) PH) as (h' & Hh & Eh).
    pose proof (horner_size ds' x Hx) as Sz. fold H in Sz.
    set (h := horner ds' x) in *.
    assert (A0 : Rabs h' <= P * H).
    { pose proof (abs_near _ _ _ Eh). replace (P * H) with (H + (P - 1) * H) by ring. lra. }
    assert (A1 : Rabs (x' * h') <= 3 * (P * H)).
    { rewrite Rabs_mult. apply Rmult_le_compat; auto using Rabs_pos. }
    assert (A2 : Rabs (x' * h' - x * h) <= 3 * ((P - 1) * H) + 3 * u * H).
    { replace (x' * h' - x * h) with (x' * (h' - h) + (x' - x) * h) by ring.
      eapply Rle_trans; [apply Rabs_triang|]. rewrite !Rabs_mult.
      apply Rplus_le_compat; apply Rmult_le_compat; auto using Rabs_pos. }
    assert (PHb : 3 * (P * H) <= 1152921504606846976).
    { eapply Rle_trans; [|exact Hb].
      assert (0 <= P * (Rabs v + u)) by (apply Rmult_le_pos; lra).
      assert (0 <= P * H) by (apply Rmult_le_pos; lra).
      replace ((1 + u) * ((1 + u) * ((1 + u) * P)) * (Rabs v + u + 3 * H))
        with ((1 + u) * (1 + u) * (1 + u) * (P * (Rabs v + u) + 3 * (P * H))) by ring.
      assert (1 <= (1 + u) * (1 + u) * (1 + u)) by nra. nra. }
    assert (Hm : f64_is (SFmul 53 1024 X (horner cs' X)) (rnd (x' * h'))).
    { apply mul_is; [exact HX|exact Hh|]. pose proof big_1000. lra. }
    set (m := rnd (x' * h')) in *.
    set (q := (1 + u) * ((1 + u) * P) - 1).
    assert (Q1 : u <= q) by (unfold q; nra).
    set (H' := Rabs v + u + 3 * H) in *.
    assert (A3 : Rabs (m - x * h) <= 3 * (q * H) + u * u).
    { replace (m - x * h) with ((m - x' * h') + (x' * h' - x * h)) by ring.
      eapply Rle_trans; [apply Rabs_triang|]. pose proof (rnd_abs (x' * h')) as R1. fold m in R1.
      assert (u * (Rabs (x' * h') + u) <= u * (3 * (P * H) + u)) by (apply Rmult_le_compat_l; lra).
      assert (0 <= P * H) by (apply Rmult_le_pos; lra).
      assert (0 <= u * u * (P * H)) by (apply Rmult_le_pos; [apply Rmult_le_pos; lra|lra]).
      assert (u * H <= u * (P * H)).
      { apply Rmult_le_compat_l; [lra|]. rewrite <- (Rmult_1_l H) at 1. apply Rmult_le_compat_r; lra. }
      replace (3 * (q * H)) with (3 * ((P - 1) * H) + 6 * (u * (P * H)) + 3 * (u * u * (P * H)))
        by (unfold q; ring). lra. }
    assert (A4 : Rabs (v' + m - (v + x * h)) <= q * H').
    { replace (v' + m - (v + x * h)) with ((v' - v) + (m - x * h)) by ring.
      eapply Rle_trans; [apply Rabs_triang|].
      assert (u * Rabs v <= q * Rabs v) by (apply Rmult_le_compat_r; lra).
      assert (u * u <= q * u) by (apply Rmult_le_compat_r; lra).
      replace (q * H') with (q * Rabs v + q * u + 3 * (q * H)) by (unfold H'; ring). lra. }
    assert (A5 : Rabs (v + x * h) <= H').
    { eapply Rle_trans; [apply Rabs_triang|]. rewrite Rabs_mult.
      assert (Rabs x * Rabs h <= 3 * H) by (apply Rmult_le_compat; auto using Rabs_pos). unfold H'. lra. }
    assert (H0' : 0 <= H') by (unfold H'; lra).
    assert (A6 : Rabs (v' + m) <= (1 + q) * H').
    { pose proof (abs_near _ _ _ A4). replace ((1 + q) * H') with (H' + q * H') by ring. lra. }
    assert (Eq : (1 + u) * ((1 + u) * ((1 + u) * P)) - 1 = q + u * (1 + q)) by (unfold q; ring).
    rewrite Eq.
    destruct (add_error v' m (fmt_of _ _ Hc) (fmt_of _ _ Hm)) as (e & He & Ee).
    exists (rnd (v' + m)). split.
    + apply add_is; [exact Hc|exact Hm|]. pose proof big_1000.
      assert (0 <= (1 + q) * H') by (apply Rmult_le_pos; lra).
      replace ((1 + u) * ((1 + u) * ((1 + u) * P)) * H') with ((1 + u) * ((1 + q) * H')) in Hb
        by (unfold q; ring). nra.
    + rewrite Ee. replace ((v' + m) * (1 + e) - (v + x * h)) with (e * (v' + m) + (v' + m - (v + x * h))) by ring.
      eapply Rle_trans; [apply Rabs_triang|]. rewrite Rabs_mult. pose proof err_le_uro.
      assert (Rabs e * Rabs (v' + m) <= u * ((1 + q) * H')) by (apply Rmult_le_compat; auto using Rabs_pos; lra).
      replace ((q + u * (1 + q)) * H') with (q * H' + u * ((1 + q) * H')) by ring. lra.
Qed.

(** ** The coefficients *)
Lemma finite_is s m e : valid_binary 53 1024 (S754_finite s m e) = true ->
  f64_is (S754_finite s m e) (IZR (cond_Zopp s (Zpos m)) * bpow radix2 e).
Proof. intros H. split; [exact H|]. split; [reflexivity|apply f64_val_finite]. Qed.

Ltac coefs :=
  match goal with |- coef ?c ?v =>
    let c' := eval vm_compute in c in
    change c with c';
    lazymatch v with
    | fdec ?a ?b => let b' := eval vm_compute in b in change v with (IZR a / IZR b')
    | _ => change v with 1
    end;
    match c' with S754_finite ?s ?m ?e =>
      let d := eval vm_compute in (Z.pow_pos 2 (Z.to_pos (- e))) in
      let n := eval vm_compute in (cond_Zopp s (Zpos m)) in
      exists (IZR n * / IZR d); split;
      [exact (finite_is s m e eq_refl)
      |rewrite u_val; unfold Rabs; repeat destruct (Rcase_abs _); lra]
    end
  end.

Lemma num_coefs : Forall2 coef (pade_num (F := f64)) (pade_num (F := R)).
Proof. unfold pade_num. repeat apply Forall2_cons; try apply Forall2_nil; coefs. Qed.

Lemma den_coefs : Forall2 coef (pade_den (F := f64)) (pade_den (F := R)).
Proof. unfold pade_den. repeat apply Forall2_cons; try apply Forall2_nil; coefs. Qed.

Ltac abs_lits :=
  repeat match goal with |- context [Rabs ?c] =>
    first [rewrite (Rabs_pos_eq c) by lra | rewrite (Rabs_left c) by lra] end.
Ltac lit_list l :=
  let rec go t := lazymatch t with
    | fdec ?a ?b :: ?t' => let b' := eval vm_compute in b in
        let r := go t' in constr:((IZR a / IZR b') :: r)
    | fofZ 1 :: ?t' => let r := go t' in constr:((1 : R) :: r)
    | _ => constr:(@nil R) end in
  let l' := eval unfold pade_num, pade_den in l in
  let r := go l' in change l with r.

Lemma num_size : hsize (pade_num (F := R)) <= 7.
Proof. lit_list (pade_num (F := R)). cbn [hsize]. rewrite u_val. abs_lits. lra. Qed.

Lemma den_size : hsize (pade_den (F := R)) <= 4.
Proof. lit_list (pade_den (F := R)). cbn [hsize]. rewrite u_val. abs_lits. lra. Qed.

(** ** The approximant *)
Lemma pden_half x : 5000000000000000000000 < pden x.
Proof.
  pose proof (quad_pos 5000000000000000000000 (-982732212730775000000) 612682713042015000000 x ltac:(lra) ltac:(lra)) as Q0.
  pose proof (quad_pos 612682713042015000000 (-111525324680647000000) 36235375641650950000 x ltac:(lra) ltac:(lra)) as Q2.
  pose proof (quad_pos 36235375641650950000 (-5847744456534040000) 1312640241482895000 x ltac:(lra) ltac:(lra)) as Q4.
  pose proof (quad_pos 1312640241482895000 (-171596576734417000) 29597270583040200 x ltac:(lra) ltac:(lra)) as Q6.
  pose proof (quad_pos 29597270583040200 (-2441748185794910) 674473938075399 x ltac:(lra) ltac:(lra)) as Q8.
  replace (pden x) with (5000000000000000000000 + (
    x ^ 0 * (5000000000000000000000 + (-982732212730775000000) * x + 612682713042015000000 * (x * x))
    + x ^ 2 * (612682713042015000000 + (-111525324680647000000) * x + 36235375641650950000 * (x * x))
    + x ^ 4 * (36235375641650950000 + (-5847744456534040000) * x + 1312640241482895000 * (x * x))
    + x ^ 6 * (1312640241482895000 + (-171596576734417000) * x + 29597270583040200 * (x * x))
    + x ^ 8 * (29597270583040200 + (-2441748185794910) * x + 674473938075399 * (x * x)))) by (unfold pden; field).
  assert (E : forall k q, 0 < q -> 0 <= x ^ (2 * k) * q).
  { intros k q Hq. rewrite pow_mult. apply Rmult_le_pos; [apply pow_le, pow2_ge_0|lra]. }
  pose proof (E 1%nat _ Q2). pose proof (E 2%nat _ Q4). pose proof (E 3%nat _ Q6). pose proof (E 4%nat _ Q8).
  cbn [Nat.mul Nat.add] in *. rewrite pow_O, Rmult_1_l. lra.
Qed.

Lemma den_half x : 1 / 2 <= horner (pade_den (F := R)) x.
Proof.
  assert (E : horner (pade_den (F := R)) x = pden x / 10000000000000000000000).
  { lit_list (pade_den (F := R)). cbn [horner fadd fmul ROps]. unfold pden. field. }
  rewrite E. pose proof (pden_half x). lra.
Qed.

Lemma sinc_size x : Rabs x <= 3 -> Rabs (sinc_pade x) <= 11 / 10.
Proof.
  intros H. pose proof (sinc_close x H). pose proof (true_sinc_le_1 x).
  pose proof (abs_near _ _ _ H0). lra.
Qed.

Lemma abs_is X x : f64_is X x -> f64_is (SFabs X) (Rabs x).
Proof.
  intros H. apply f64_is_B in H as (b & -> & Fb & <-).
  destruct b as [s|s| |s m e Hb]; try discriminate Fb.
  - cbn. split; [reflexivity|]. split; [reflexivity|]. cbn. rewrite Rabs_R0. reflexivity.
  - split; [exact Hb|]. split; [reflexivity|]. cbn [SFabs B2SF B2R]. rewrite f64_val_finite.
    unfold F2R. cbn [Fnum Fexp]. rewrite Rabs_mult, (Rabs_pos_eq (bpow radix2 e)) by apply bpow_ge_0.
    rewrite <- abs_IZR. destruct s; reflexivity.
Qed.

Lemma pow33 : (1 + u) ^ 33 <= 1 + 66 * u.
Proof.
  eapply Rle_trans; [apply pow_bound|]; cbn [INR]; rewrite ?u_val; lra.
Qed.

Lemma sinc_near X x' x : f64_is X x' -> Rabs x' <= 3 -> Rabs x <= 3 -> Rabs (x' - x) <= 3 * u ->
  near (sinc_pade X) (sinc_pade x) (/ 549755813888).
Proof.
  intros HX B' B D.
  pose proof (abs_is _ _ HX) as HA.
  assert (D' : Rabs (Rabs x' - Rabs x) <= 3 * u) by (eapply Rle_trans; [apply Rabs_triang_inv2|exact D]).
  assert (Bx : 0 <= Rabs x <= 3) by (split; [apply Rabs_pos|exact B]).
  assert (NX : near (SFabs X) (Rabs x) (3 * u)) by (exists (Rabs x'); auto).
  pose proof pow33 as P. pose proof (pow_ge_1 33) as P1. pose proof u_val as U.
  pose proof num_size as SN. pose proof den_size as SD.
  pose proof (hsize_nonneg (pade_num (F := R))) as SN0. pose proof (hsize_nonneg (pade_den (F := R))) as SD0.
  assert (BB : Rabs (Rabs x') <= 3) by (rewrite Rabs_Rabsolu; exact B').
  assert (BA : Rabs (Rabs x) <= 3) by (rewrite Rabs_Rabsolu; exact B).
  assert (PU : (1 + uro) ^ 33 <= 2) by (rewrite U in *; lra).
  assert (HN : near (horner (pade_num (F := f64)) (SFabs X)) (horner (pade_num (F := R)) (Rabs x)) (462 * u)).
  { eapply near_weaken; [apply (horner_near _ _ num_coefs _ (Rabs x')); auto; [discriminate|]|].
    - change (3 * length (pade_num (F := R)))%nat with 33%nat.
      apply Rle_trans with (2 * 7); [apply Rmult_le_compat; lra|lra].
    - change (3 * length (pade_num (F := R)))%nat with 33%nat.
      apply Rle_trans with (66 * u * 7); [apply Rmult_le_compat; lra|lra]. }
  assert (HD : near (horner (pade_den (F := f64)) (SFabs X)) (horner (pade_den (F := R)) (Rabs x)) (264 * u)).
  { eapply near_weaken; [apply (horner_near _ _ den_coefs _ (Rabs x')); auto; [discriminate|]|].
    - change (3 * length (pade_den (F := R)))%nat with 33%nat.
      apply Rle_trans with (2 * 4); [apply Rmult_le_compat; lra|lra].
    - change (3 * length (pade_den (F := R)))%nat with 33%nat.
      apply Rle_trans with (66 * u * 4); [apply Rmult_le_compat; lra|lra]. }
  assert (Z1 : f64_is (f64_ofZ 1) 1) by (apply f64_ofZ_is; cbn; lia).
  assert (Z2 : f64_is (f64_ofZ 2) 2) by (apply f64_ofZ_is; cbn; lia).
  assert (Z3 : f64_is (f64_ofZ 3) 3) by (apply f64_ofZ_is; cbn; lia).
  assert (B1 : Rabs (Rabs x - 1) <= 2) by (apply Rabs_le; lra).
  assert (B2 : Rabs (Rabs x - 2) <= 2) by (apply Rabs_le; lra).
  assert (B3 : Rabs (Rabs x - 3) <= 3) by (apply Rabs_le; lra).
  pose proof (sub_near _ _ _ _ _ 2 NX Z1 B1 ltac:(lra)) as N1.
  pose proof (sub_near _ _ _ _ _ 2 NX Z2 B2 ltac:(lra)) as N2.
  pose proof (sub_near _ _ _ _ _ 3 NX Z3 B3 ltac:(lra)) as N3.
  apply (near_weaken _ _ _ (51 / 10 * u)) in N1; [|rewrite U; lra].
  apply (near_weaken _ _ _ (51 / 10 * u)) in N2; [|rewrite U; lra].
  apply (near_weaken _ _ _ (61 / 10 * u)) in N3; [|rewrite U; lra].
  pose proof (horner_size (pade_num (F := R)) (Rabs x) BA) as SH.
  assert (SH7 : Rabs (horner (pade_num (F := R)) (Rabs x)) <= 7) by lra.
  pose proof (mul_near _ _ _ _ _ _ 7 2 HN N1 SH7 B1 ltac:(rewrite U; lra)) as M1.
  apply (near_weaken _ _ _ (975 * u)) in M1; [|rewrite U; lra].
  assert (S1 : Rabs (horner (pade_num (F := R)) (Rabs x) * (Rabs x - 1)) <= 14).
  { rewrite Rabs_mult. replace 14 with (7 * 2) by lra. apply Rmult_le_compat; auto using Rabs_pos. }
  pose proof (mul_near _ _ _ _ _ _ 14 2 M1 N2 S1 B2 ltac:(rewrite U; lra)) as M2.
  apply (near_weaken _ _ _ (2055 * u)) in M2; [|rewrite U; lra].
  assert (S2 : Rabs (horner (pade_num (F := R)) (Rabs x) * (Rabs x - 1) * (Rabs x - 2)) <= 28).
  { rewrite Rabs_mult. replace 28 with (14 * 2) by lra. apply Rmult_le_compat; auto using Rabs_pos. }
  pose proof (mul_near _ _ _ _ _ _ 28 3 M2 N3 S2 B3 ltac:(rewrite U; lra)) as M3.
  apply (near_weaken _ _ _ (6430 * u)) in M3; [|rewrite U; lra].
  eapply near_weaken.
  - refine (div_near _ _ _ _ _ _ (11 / 10) (49 / 100) M3 HD _ _ _ _); [apply (sinc_size x B)|lra| |].
    + pose proof (den_half (Rabs x)). rewrite U. lra.
    + rewrite U. lra.
  - rewrite U. lra.
Qed.

(** ** The kernel *)
Lemma floor_id x v : f64_is x v -> ffloor x = Some (Zfloor v).
Proof. apply f64_floor_is. Qed.

Lemma kernel_near (a : Z) (d' d : R) (X : f64) : (1 <= a <= 3)%Z -> f64_is X d' ->
  Rabs d <= IZR a -> Rabs d' <= IZR a -> Rabs (d' - d) <= u * IZR a ->
  near (lanczos_kernel a X) (lanczos_kernel a d) (/ 137438953472).
Proof.
  intros Ha HX Hd Hd' He. pose proof u_val as U.
  assert (A13 : 1 <= IZR a <= 3) by (split; apply IZR_le; lia).
  assert (N1 : near (sinc_pade X) (sinc_pade d) (/ 549755813888)).
  { apply (sinc_near X d' d); auto; [lra..|]. eapply Rle_trans; [exact He|]. rewrite U. lra. }
  assert (Q : Rabs (d / IZR a) <= 1).
  { unfold Rdiv. rewrite Rabs_mult, Rabs_inv, (Rabs_pos_eq (IZR a)) by lra.
    apply Rmult_le_reg_r with (IZR a); [lra|]. rewrite Rmult_assoc, Rinv_l by lra. lra. }
  assert (Q' : Rabs (d' / IZR a) <= 1).
  { unfold Rdiv. rewrite Rabs_mult, Rabs_inv, (Rabs_pos_eq (IZR a)) by lra.
    apply Rmult_le_reg_r with (IZR a); [lra|]. rewrite Rmult_assoc, Rinv_l by lra. lra. }
  assert (ZA : f64_is (f64_ofZ a) (IZR a)) by (apply f64_ofZ_is; lia).
  assert (HDv : f64_is (SFdiv 53 1024 X (f64_ofZ a)) (rnd (d' / IZR a))).
  { apply div_is; [exact HX|exact ZA|lra|]. pose proof big_1000. lra. }
  pose proof (rnd_abs (d' / IZR a)) as R1.
  assert (R2 : Rabs (d' / IZR a - d / IZR a) <= u).
  { replace (d' / IZR a - d / IZR a) with ((d' - d) / IZR a) by (field; lra).
    unfold Rdiv. rewrite Rabs_mult, Rabs_inv, (Rabs_pos_eq (IZR a)) by lra.
    apply Rmult_le_reg_r with (IZR a); [lra|]. rewrite Rmult_assoc, Rinv_l by lra. lra. }
  assert (R3 : Rabs (rnd (d' / IZR a) - d / IZR a) <= 3 * u).
  { replace (rnd (d' / IZR a) - d / IZR a)
      with ((rnd (d' / IZR a) - d' / IZR a) + (d' / IZR a - d / IZR a)) by ring.
    eapply Rle_trans; [apply Rabs_triang|].
    assert (u * (Rabs (d' / IZR a) + u) <= u * (1 + u)) by (apply Rmult_le_compat_l; rewrite ?U; lra).
    rewrite U in *. lra. }
  assert (R4 : Rabs (rnd (d' / IZR a)) <= 3).
  { pose proof (abs_near _ _ _ R3). rewrite U in *. lra. }
  pose proof (sinc_near _ _ (d / IZR a) HDv R4 ltac:(lra) R3) as N2.
  pose proof (sinc_size d ltac:(lra)) as S1. pose proof (sinc_size (d / IZR a) ltac:(lra)) as S2.
  eapply near_weaken; [apply (mul_near _ _ _ _ _ _ (11 / 10) (11 / 10) N1 N2 S1 S2); lra|].
  rewrite U. lra.
Qed.

(** ** One position *)
Definition eta : R := bpow radix2 (-1075).
Lemma eta_pos : 0 < eta.
Proof. apply bpow_gt_0. Qed.

Lemma rnd_fine x : Rabs (rnd x - x) <= u * Rabs x + eta.
Proof.
  destruct (rnd_error_gen x) as (e & h & He & Hh & ->). pose proof err_le_uro. pose proof uro_pos.
  replace (x * (1 + e) + h - x) with (e * x + h) by ring.
  eapply Rle_trans; [apply Rabs_triang|]. rewrite Rabs_mult.
  apply Rplus_le_compat; [apply Rmult_le_compat_r; [apply Rabs_pos|lra]|]. exact Hh.
Qed.

Lemma kernel_size (a : Z) (d : R) : (1 <= a <= 3)%Z -> Rabs d <= IZR a -> Rabs (lanczos_kernel a d) <= 121 / 100.
Proof.
  intros Ha Hd. assert (A13 : 1 <= IZR a <= 3) by (split; apply IZR_le; lia).
  assert (Q : Rabs (d / IZR a) <= 1).
  { unfold Rdiv. rewrite Rabs_mult, Rabs_inv, (Rabs_pos_eq (IZR a)) by lra.
    apply Rmult_le_reg_r with (IZR a); [lra|]. rewrite Rmult_assoc, Rinv_l by lra. lra. }
  unfold lanczos_kernel. cbn [fmul fdiv fofZ ROps]. rewrite Rabs_mult.
  replace (121 / 100) with (11 / 10 * (11 / 10)) by lra.
  apply Rmult_le_compat; auto using Rabs_pos; apply sinc_size; lra.
Qed.

Lemma axis_near (a : Z) (Y : f64) (y : R) (i : Z) : (1 <= a <= 3)%Z -> f64_is Y y ->
  Rabs y <= 4503599627370496 -> in_window a y i ->
  near (lanczos_kernel a (SFsub 53 1024 Y (f64_ofZ i))) (lanczos_kernel a (y - IZR i)) (/ 137438953472).
Proof.
  intros Ha HY By Hw. unfold in_window in Hw.
  assert (A13 : 1 <= IZR a <= 3) by (split; apply IZR_le; lia).
  apply Rabs_le_inv in By.
  assert (Bi : (Z.abs i <= 2 ^ 53)%Z).
  { change (2 ^ 53)%Z with 9007199254740992%Z. apply le_IZR. rewrite abs_IZR. apply Rabs_le. lra. }
  assert (D : Rabs (y - IZR i) <= IZR a) by (apply Rabs_le; lra).
  pose proof (f64_ofZ_is i Bi) as Zi.
  pose proof (sub_error y (IZR i) (fmt_of _ _ HY) (fmt_of _ _ Zi)) as E.
  apply (kernel_near a (rnd (y - IZR i))); auto.
  - apply sub_is; [exact HY|exact Zi|]. pose proof big_1000. lra.
  - apply abs_round_le_generic; [typeclasses eauto..| |exact D].
    apply int_format. change (2 ^ 53)%Z with 9007199254740992%Z. lia.
  - eapply Rle_trans; [exact E|]. apply Rmult_le_compat_l; [pose proof uro_pos; lra|exact D].
Qed.

Lemma kern2_near (a : Z) (Y X : f64) (y x : R) (i j : Z) : (1 <= a <= 3)%Z -> f64_is Y y -> f64_is X x ->
  Rabs y <= 4503599627370496 -> Rabs x <= 4503599627370496 -> in_window a y i -> in_window a x j ->
  near (kern2 a Y X (i, j)) (kern2 a y x (i, j)) (/ 34359738368) /\
  Rabs (kern2 a y x (i, j)) <= 3 / 2.
Proof.
  intros Ha HY HX By Bx Wy Wx. pose proof u_val as U.
  pose proof (axis_near a Y y i Ha HY By Wy) as N1. pose proof (axis_near a X x j Ha HX Bx Wx) as N2.
  unfold in_window in *.
  assert (S1 : Rabs (lanczos_kernel a (y - IZR i)) <= 121 / 100) by (apply kernel_size; [lia|apply Rabs_le; lra]).
  assert (S2 : Rabs (lanczos_kernel a (x - IZR j)) <= 121 / 100) by (apply kernel_size; [lia|apply Rabs_le; lra]).
  unfold kern2. cbn [fst snd]. split.
  - eapply near_weaken; [apply (mul_near _ _ _ _ _ _ (121 / 100) (121 / 100) N2 N1 S2 S1); lra|].
    rewrite U. lra.
  - cbn [fmul ROps fsub fofZ]. rewrite Rabs_mult.
    apply Rle_trans with (121 / 100 * (121 / 100)); [|lra].
    apply Rmult_le_compat; auto using Rabs_pos.
Qed.

Lemma axis_len n f a : (1 <= a <= 3)%Z -> (length (axis_pix n f a) <= 6)%nat.
Proof.
  intros Ha. unfold axis_pix.
  match goal with |- (length (filter ?p ?l) <= _)%nat =>
    assert (K : (length (filter p l) <= length l)%nat) end.
  { clear Ha. generalize (zrange (f - a + 1) (f + a + 1)) as l. intros l.
    induction l as [|b l IH]; cbn; [lia|]. destruct (negb _); cbn; lia. }
  rewrite zrange_length in K. lia.
Qed.

Lemma window_len ny nx fy fx a : (1 <= a <= 3)%Z -> (length (window_pix ny nx fy fx a) <= 36)%nat.
Proof.
  intros Ha. unfold window_pix. pose proof (axis_len ny fy a Ha) as L1. pose proof (axis_len nx fx a Ha) as L2.
  assert (K : length (flat_map (fun r => map (fun c => (r, c)) (axis_pix nx fx a)) (axis_pix ny fy a))
              = (length (axis_pix ny fy a) * length (axis_pix nx fx a))%nat).
  { generalize (axis_pix ny fy a) as l. induction l as [|b l IH]; [reflexivity|].
    cbn [flat_map]. rewrite app_length, map_length, IH. cbn [length]. lia. }
  rewrite K. nia.
Qed.

Lemma asum_bound l B : 0 <= B -> Forall (fun v => Rabs v <= B) l -> asum l <= INR (length l) * B.
Proof.
  intros HB. induction 1 as [|v l Hv _ IH]; [unfold asum; cbn; lra|].
  rewrite asum_cons. cbn [length]. rewrite S_INR. lra.
Qed.

Lemma rsum_same l : RoundSum.rsum l = LanczosSpec.rsum l.
Proof. induction l as [|v l IH]; [reflexivity|]. cbn. rewrite IH. reflexivity. Qed.

Lemma rsum_diff {B} (f g : B -> R) (l : list B) e : (forall b, In b l -> Rabs (f b - g b) <= e) ->
  Rabs (RoundSum.rsum (map f l) - RoundSum.rsum (map g l)) <= INR (length l) * e.
Proof.
  intros H. induction l as [|b l IH].
  - cbn. rewrite Rminus_diag_eq, Rabs_R0 by reflexivity. lra.
  - cbn [map RoundSum.rsum length]. rewrite S_INR.
    pose proof (H b ltac:(left; reflexivity)) as Hb.
    pose proof (IH (fun b' Hb' => H b' (or_intror Hb'))) as Hl.
    match goal with |- Rabs (?p + ?q - (?r + ?s)) <= _ =>
      replace (p + q - (r + s)) with ((p - r) + (q - s)) by ring end.
    eapply Rle_trans; [apply Rabs_triang|]. lra.
Qed.

(** A pixel times the two kernel values, in whatever order they are multiplied. *)
Lemma product_near (P A B t : f64) (w ka kb M : R) : product3 P A B t ->
  f64_is P w -> Rabs w <= M -> M <= bpow radix2 900 ->
  near A ka (/ 137438953472) -> near B kb (/ 137438953472) -> Rabs ka <= 121 / 100 -> Rabs kb <= 121 / 100 ->
  exists v, f64_is t v /\ Rabs (v - w * (ka * kb)) <= M * / 17179869184 + 3 * eta /\ Rabs v <= 2 * M + 3 * eta.
Proof.
  intros T HP BW HM (a & HA & EA) (b & HB & EB) SA SB. pose proof u_val as U. pose proof eta_pos as E0.
  pose proof uro_pos as U0. pose proof (Rabs_pos w) as W0.
  assert (big900 : bpow radix2 900 * 4 <= bpow radix2 1000).
  { change 4 with (bpow radix2 2). rewrite <- bpow_plus. apply bpow_le. lia. }
  assert (eta1 : eta <= 1) by (apply (bpow_le radix2 (-1075) 0); lia).
  assert (one900 : 1 <= bpow radix2 900) by (apply (bpow_le radix2 0 900); lia).
  assert (Da : Rabs a <= 122 / 100) by (pose proof (abs_near _ _ _ EA); lra).
  assert (Db : Rabs b <= 122 / 100) by (pose proof (abs_near _ _ _ EB); lra).
  assert (Dab : Rabs (a * b) <= 149 / 100).
  { rewrite Rabs_mult. apply Rle_trans with (122 / 100 * (122 / 100)); [|lra].
    apply Rmult_le_compat; auto using Rabs_pos. }
  assert (K : Rabs (a * b - ka * kb) <= / 45000000000).
  { replace (a * b - ka * kb) with ((a - ka) * b + ka * (b - kb)) by ring.
    eapply Rle_trans; [apply Rabs_triang|]. rewrite !Rabs_mult.
    assert (Rabs (a - ka) * Rabs b <= / 137438953472 * (122 / 100)) by (apply Rmult_le_compat; auto using Rabs_pos).
    assert (Rabs ka * Rabs (b - kb) <= 121 / 100 * / 137438953472) by (apply Rmult_le_compat; auto using Rabs_pos).
    lra. }
  assert (Dk : Rabs (w * (a * b) - w * (ka * kb)) <= M * / 45000000000).
  { replace (w * (a * b) - w * (ka * kb)) with (w * (a * b - ka * kb)) by ring. rewrite Rabs_mult.
    apply Rmult_le_compat; auto using Rabs_pos. }
  assert (Dw : Rabs (w * (a * b)) <= M * (149 / 100)).
  { rewrite Rabs_mult. apply Rmult_le_compat; auto using Rabs_pos. }
  (* it is enough to be within four roundings of the exact product *)
  assert (Fin : forall v, Rabs (v - w * (a * b)) <= 4 * u * (M * (149 / 100)) + 3 * eta ->
            Rabs (v - w * (ka * kb)) <= M * / 17179869184 + 3 * eta /\ Rabs v <= 2 * M + 3 * eta).
  { intros v Ev. rewrite U in Ev. split.
    - replace (v - w * (ka * kb)) with ((v - w * (a * b)) + (w * (a * b) - w * (ka * kb))) by ring.
      eapply Rle_trans; [apply Rabs_triang|]. lra.
    - pose proof (abs_near _ _ _ Ev). lra. }
  (* two products in a row *)
  assert (Two : forall (C D : f64) c d, f64_is C c -> f64_is D d -> Rabs c <= 122 / 100 -> Rabs d <= 122 / 100 ->
            c * d = a * b -> exists v, f64_is (fmul (fmul P C) D) v /\
              Rabs (v - w * (a * b)) <= 4 * u * (M * (149 / 100)) + 3 * eta).
  { intros C D c d HC HD Bc Bd Ecd.
    assert (W1 : Rabs (w * c) <= M * (122 / 100)).
    { rewrite Rabs_mult. apply Rmult_le_compat; auto using Rabs_pos. }
    assert (H1 : f64_is (fmul P C) (rnd (w * c))) by (apply mul_is; [exact HP|exact HC|lra]).
    pose proof (rnd_fine (w * c)) as R1. set (q := rnd (w * c)) in *.
    assert (Eq : Rabs (q * d - w * (a * b)) <= u * (M * (149 / 100)) + 122 / 100 * eta).
    { rewrite <- Ecd. replace (q * d - w * (c * d)) with ((q - w * c) * d) by ring. rewrite Rabs_mult.
      apply Rle_trans with ((u * Rabs (w * c) + eta) * Rabs d);
        [apply Rmult_le_compat_r; [apply Rabs_pos|exact R1]|].
      rewrite Rmult_plus_distr_r, Rmult_assoc, <- Rabs_mult.
      replace (w * c * d) with (w * (a * b)) by (rewrite <- Ecd; ring).
      assert (u * Rabs (w * (a * b)) <= u * (M * (149 / 100))) by (apply Rmult_le_compat_l; lra).
      assert (eta * Rabs d <= eta * (122 / 100)) by (apply Rmult_le_compat_l; lra). lra. }
    pose proof (abs_near _ _ _ Eq) as Bq. rewrite U in Eq, Bq.
    assert (H2 : f64_is (fmul (fmul P C) D) (rnd (q * d))) by (apply mul_is; [exact H1|exact HD|lra]).
    exists (rnd (q * d)). split; [exact H2|].
    pose proof (rnd_fine (q * d)) as R2. rewrite U in R2 |- *.
    replace (rnd (q * d) - w * (a * b)) with ((rnd (q * d) - q * d) + (q * d - w * (a * b))) by ring.
    eapply Rle_trans; [apply Rabs_triang|]. lra. }
  destruct T as [-> | [-> | ->]].
  - assert (H1 : f64_is (fmul A B) (rnd (a * b))) by (apply mul_is; [exact HA|exact HB|lra]).
    pose proof (rnd_fine (a * b)) as R1. set (q := rnd (a * b)) in *.
    assert (R1' : Rabs (q - a * b) <= u * (149 / 100) + eta).
    { eapply Rle_trans; [exact R1|]. apply Rplus_le_compat_r, Rmult_le_compat_l; lra. }
    assert (eta2 : eta <= / 9007199254740992) by (apply (bpow_le radix2 (-1075) (-53)); lia).
    assert (Eq : Rabs (w * q - w * (a * b)) <= M * (2 * u * (149 / 100))).
    { replace (w * q - w * (a * b)) with (w * (q - a * b)) by ring. rewrite Rabs_mult.
      apply Rmult_le_compat; auto using Rabs_pos. rewrite U in *. lra. }
    pose proof (abs_near _ _ _ Eq) as Bq. rewrite U in Eq, Bq.
    assert (H2 : f64_is (fmul P (fmul A B)) (rnd (w * q))) by (apply mul_is; [exact HP|exact H1|lra]).
    exists (rnd (w * q)). split; [exact H2|]. apply Fin.
    pose proof (rnd_fine (w * q)) as R2. rewrite U in R2 |- *.
    replace (rnd (w * q) - w * (a * b)) with ((rnd (w * q) - w * q) + (w * q - w * (a * b))) by ring.
    eapply Rle_trans; [apply Rabs_triang|]. lra.
  - destruct (Two A B a b HA HB Da Db eq_refl) as (v & Hv & Ev). exists v. split; [exact Hv|]. apply Fin, Ev.
  - destruct (Two B A b a HB HA Db Da ltac:(ring)) as (v & Hv & Ev). exists v. split; [exact Hv|]. apply Fin, Ev.
Qed.

(** The terms added up in any order. *)
Lemma terms_near {B} (ps : list B) (g : B -> R) (M : R) : (length ps <= 36)%nat -> 0 <= M <= bpow radix2 900 ->
  forall ts : list f64,
  Forall2 (fun p t => exists v, f64_is t v /\ Rabs (v - g p) <= M * / 17179869184 + 3 * eta /\
                                Rabs v <= 2 * M + 3 * eta) ps ts ->
  forall s, adds ts s -> near s (RoundSum.rsum (map g ps)) (M * / 268435456 + bpow radix2 (-1000)).
Proof.
  intros Lp' HM ts HT s Hs. pose proof u_val as U. pose proof eta_pos as E0. pose proof uro_pos as U0.
  assert (V : exists vs, Forall2 f64_is ts vs /\ length vs = length ps /\
     Forall (fun v => Rabs v <= 2 * M + 3 * eta) vs /\
     Rabs (RoundSum.rsum vs - RoundSum.rsum (map g ps)) <= INR (length ps) * (M * / 17179869184 + 3 * eta)).
  { clear Hs Lp'. induction HT as [|p t ps ts (v & Hv & Ev & Bv) _ (vs & F & L & A & E)].
    - exists []. split; [constructor|]. split; [reflexivity|]. split; [constructor|].
      cbn. rewrite Rminus_diag_eq, Rabs_R0 by reflexivity. lra.
    - exists (v :: vs). split; [constructor; assumption|]. split; [cbn; now rewrite L|].
      split; [constructor; assumption|]. cbn [map RoundSum.rsum length]. rewrite S_INR.
      match goal with |- Rabs (?p + ?q - (?r + ?s)) <= _ =>
        replace (p + q - (r + s)) with ((p - r) + (q - s)) by ring end.
      eapply Rle_trans; [apply Rabs_triang|]. lra. }
  destruct V as (vs & F2 & Lv & FA & RD).
  assert (eta1 : eta <= 1) by (apply (bpow_le radix2 (-1075) 0); lia).
  assert (one900 : 1 <= bpow radix2 900) by (apply (bpow_le radix2 0 900); lia).
  assert (Lp : INR (length ps) <= 36).
  { change 36 with (IZR (Z.of_nat 36)). rewrite <- INR_IZR_INZ. apply le_INR. exact Lp'. }
  pose proof (asum_bound vs (2 * M + 3 * eta) ltac:(lra) FA) as A1. rewrite Lv in A1.
  pose proof (asum_nonneg vs) as A0. pose proof (pos_INR (length ps)) as P0.
  assert (A2 : asum vs <= 36 * (2 * M + 3 * eta)).
  { eapply Rle_trans; [exact A1|]. apply Rmult_le_compat_r; lra. }
  assert (Lt : length ts = length ps).
  { rewrite <- Lv. clear -F2. induction F2; cbn; congruence. }
  assert (PB : (1 + u) ^ length ts <= 1 + 72 * u).
  { rewrite Lt. eapply Rle_trans; [apply pow_bound; rewrite U; lra|]. rewrite U. lra. }
  pose proof (pow_ge_1 (length ts)) as PG.
  destruct (adds_error ts s Hs vs F2) as (v & Hv & Ev).
  { apply Rle_trans with (2 * (36 * (2 * M + 3 * eta))); [apply Rmult_le_compat; rewrite ?U in *; lra|].
    assert (bpow radix2 900 * 512 <= bpow radix2 1000); [|lra].
    change 512 with (bpow radix2 9). rewrite <- bpow_plus. apply bpow_le. lia. }
  exists v. split; [exact Hv|].
  assert (PM : (1 + u) ^ (length ts - 1) <= (1 + u) ^ length ts) by (apply Rle_pow; [lra|lia]).
  assert (RD2 : INR (length ps) * (M * / 17179869184 + 3 * eta) <= 36 * (M * / 17179869184 + 3 * eta))
    by (apply Rmult_le_compat_r; lra).
  assert (PG1 : 1 <= (1 + u) ^ (length ts - 1)) by apply pow_ge_1.
  assert (E2 : ((1 + u) ^ (length ts - 1) - 1) * asum vs <= 72 * u * (36 * (2 * M + 3 * eta))).
  { apply Rmult_le_compat; lra. }
  assert (ET : 256 * eta <= bpow radix2 (-1000)).
  { unfold eta. change 256 with (bpow radix2 8). rewrite <- bpow_plus. apply bpow_le. lia. }
  match goal with |- Rabs (v - ?S) <= _ =>
    replace (v - S) with ((v - RoundSum.rsum vs) + (RoundSum.rsum vs - S)) by ring end.
  eapply Rle_trans; [apply Rabs_triang|]. rewrite U in *. lra.
Qed.

Lemma window_near (im : img f64) (val : Z -> Z -> R) (a : Z) (y x M : R) (ky kx : Z -> f64) ps ts s :
  (1 <= a <= 3)%Z -> 0 <= M <= bpow radix2 900 ->
  (forall r c, In (r, c) ps -> inb im r c /\ in_window a y r /\ in_window a x c) -> (length ps <= 36)%nat ->
  (forall r c, inb im r c -> in_window a y r -> in_window a x c ->
     f64_is (px im r c) (val r c) /\ Rabs (val r c) <= M) ->
  (forall r, in_window a y r -> near (ky r) (lanczos_kernel a (y - IZR r)) (/ 137438953472)) ->
  (forall c, in_window a x c -> near (kx c) (lanczos_kernel a (x - IZR c)) (/ 137438953472)) ->
  Forall2 (fun p t => product3 (px im (fst p) (snd p)) (kx (snd p)) (ky (fst p)) t) ps ts -> adds ts s ->
  near s (RoundSum.rsum (map (fun p => val (fst p) (snd p) * kern2 a y x p) ps))
    (M * / 268435456 + bpow radix2 (-1000)).
Proof.
  intros Ha HM W L Hpx Hky Hkx HT Hs. apply (terms_near ps _ M L HM ts); [|exact Hs].
  clear Hs L. induction HT as [|[r c] t ps ts T _ IH]; constructor.
  - destruct (W r c ltac:(left; reflexivity)) as (Hi & Wr & Wc). destruct (Hpx r c Hi Wr Wc) as [Hp Bp].
    cbn [fst snd] in *. unfold kern2. cbn [fst snd fmul fsub fofZ ROps].
    apply (product_near _ _ _ _ _ _ _ _ T Hp Bp (proj2 HM) (Hkx c Wc) (Hky r Wr)).
    + apply kernel_size; [lia|]. unfold in_window in Wc. apply Rabs_le. lra.
    + apply kernel_size; [lia|]. unfold in_window in Wr. apply Rabs_le. lra.
  - apply IH. intros r' c' H. apply W. right. exact H.
Qed.

(** The order of the source. *)
Lemma point_adds (im : img f64) (a : Z) (Y X : f64) (y x : R) : f64_is Y y -> f64_is X x ->
  exists v e ts, lanczos_point im a Y X = Ok (v, e) /\ adds ts v /\
    Forall2 (fun p t => product3 (px im (fst p) (snd p))
                          (lanczos_kernel a (fsub X (fofZ (snd p)))) (lanczos_kernel a (fsub Y (fofZ (fst p)))) t)
      (window_pix (nrows im) (ncols im) (Zfloor y) (Zfloor x) a) ts.
Proof.
  intros HY HX. rewrite point_sum. rewrite (floor_id _ _ HX), (floor_id _ _ HY).
  set (ps := window_pix (nrows im) (ncols im) (Zfloor y) (Zfloor x) a).
  set (t := fun p : Z * Z => fmul (px im (fst p) (snd p)) (kern2 a Y X p)).
  match goal with |- exists v e ts, Ok (?w, ?f) = _ /\ _ => exists w, f, (map t ps) end.
  split; [reflexivity|]. split.
  - pose proof (adds_fold (map t ps) [] fzero adds_none) as H. cbn [app] in H. rewrite fold_map in H. exact H.
  - clear. induction ps as [|p ps IH]; cbn [map]; constructor; [left; reflexivity|exact IH].
Qed.

Lemma point_near (im : img f64) (val : Z -> Z -> R) (a : Z) (Y X : f64) (y x M : R) :
  (1 <= a <= 3)%Z -> f64_is Y y -> f64_is X x ->
  Rabs y <= 4503599627370496 -> Rabs x <= 4503599627370496 -> 0 <= M <= bpow radix2 900 ->
  (forall r c, (0 <= r < nrows im)%Z -> (0 <= c < ncols im)%Z -> in_window a y r -> in_window a x c ->
     f64_is (px im r c) (val r c) /\ Rabs (val r c) <= M) ->
  exists v e S, lanczos_point im a Y X = Ok (v, e) /\
    window_sum (nrows im) (ncols im) a y x (fun r c => val r c * kern2 a y x (r, c)) S /\
    near v S (M * / 268435456 + bpow radix2 (-1000)).
Proof.
  intros Ha HY HX By Bx HM Hpx.
  destruct (point_adds im a Y X y x HY HX) as (v & e & ts & E & A & HT).
  set (ps := window_pix (nrows im) (ncols im) (Zfloor y) (Zfloor x) a) in *.
  exists v, e, (RoundSum.rsum (map (fun p => val (fst p) (snd p) * kern2 a y x p) ps)).
  split; [exact E|]. split.
  { exists ps. split; [apply NoDup_window_pix|]. split; [intros r c; apply window_pix_spec|].
    rewrite rsum_same. reflexivity. }
  apply (window_near im val a y x M (fun r => lanczos_kernel a (fsub Y (fofZ r)))
           (fun c => lanczos_kernel a (fsub X (fofZ c))) ps ts v Ha HM).
  - intros r c Hin. apply window_pix_spec in Hin. unfold inb. tauto.
  - apply window_len, Ha.
  - intros r c [Hr Hc]. apply Hpx; assumption.
  - intros r Wr. apply axis_near; assumption.
  - intros c Wc. apply axis_near; assumption.
  - exact HT.
  - exact A.
Qed.

(** ** Integer positions *)
Lemma is_nonzero_inj X Y v : f64_is X v -> f64_is Y v -> v <> 0 -> X = Y.
Proof.
  intros HX HY Hv.
  apply f64_is_B in HX as (b & -> & Fb & Eb). apply f64_is_B in HY as (b' & -> & Fb' & Eb').
  f_equal. apply B2R_inj.
  - destruct b; try discriminate Fb; [cbn in Eb; lra|reflexivity].
  - destruct b'; try discriminate Fb'; [cbn in Eb'; lra|reflexivity].
  - congruence.
Qed.

Lemma is_zero_form X : f64_is X 0 -> exists s, X = S754_zero s.
Proof.
  intros H. apply f64_is_B in H as (b & -> & Fb & Eb).
  destruct b as [s| | |s m e Hb]; try discriminate Fb; [exists s; reflexivity|].
  exfalso. cbn [B2R] in Eb. apply eq_0_F2R in Eb. cbn in Eb. destruct s; discriminate Eb.
Qed.

Lemma kern_zero (a : Z) X : (1 <= a <= 3)%Z -> f64_is X 0 ->
  near (lanczos_kernel a X) 1 (72 * u).
Proof.
  intros Ha HX. destruct (is_zero_form X HX) as [s ->].
  assert (Aa : a = 1%Z \/ a = 2%Z \/ a = 3%Z) by lia.
  assert (E : lanczos_kernel (F := f64) a (S754_zero s) = S754_finite false 9007199254740920 (-53)).
  { destruct s; destruct Aa as [-> | [-> | ->]]; vm_compute; reflexivity. }
  rewrite E. exists (9007199254740920 * / 9007199254740992). split.
  - exact (finite_is false 9007199254740920 (-53) eq_refl).
  - apply Rabs_le. rewrite u_val. lra.
Qed.

Lemma kern_int (a k : Z) X : (1 <= a <= 3)%Z -> (Z.abs k <= a)%Z -> k <> 0%Z -> f64_is X (IZR k) ->
  f64_is (lanczos_kernel a X) 0.
Proof.
  intros Ha Hk Hn HX.
  assert (EX : X = f64_ofZ k).
  { apply (is_nonzero_inj _ _ (IZR k)); [exact HX|apply f64_ofZ_is; lia|].
    intros E. apply Hn. apply eq_IZR. exact E. }
  subst X.
  assert (Aa : a = 1%Z \/ a = 2%Z \/ a = 3%Z) by lia.
  assert (Ak : k = (-3)%Z \/ k = (-2)%Z \/ k = (-1)%Z \/ k = 1%Z \/ k = 2%Z \/ k = 3%Z) by lia.
  assert (E : exists s, lanczos_kernel (F := f64) a (f64_ofZ k) = S754_zero s).
  { destruct Aa as [-> | [-> | ->]]; destruct Ak as [-> | [-> | [-> | [-> | [-> | ->]]]]];
      try (exfalso; lia);
      first [exists true; vm_compute; reflexivity | exists false; vm_compute; reflexivity]. }
  destruct E as [s ->]. repeat split.
Qed.

Lemma mul_zero_is x y v w : f64_is x v -> f64_is y w -> v * w = 0 -> f64_is (SFmul 53 1024 x y) 0.
Proof.
  intros Hx Hy E. pose proof (mul_is x y v w Hx Hy) as H. rewrite E in H.
  rewrite (rnd_id 0) in H by apply generic_format_0. apply H.
  rewrite Rabs_R0. apply bpow_ge_0.
Qed.

Lemma point_integer_near (im : img f64) (val : Z -> Z -> R) (a r c : Z) (Y X : f64) :
  (1 <= a <= 3)%Z -> f64_is Y (IZR r) -> f64_is X (IZR c) ->
  (Z.abs r <= 2 ^ 52)%Z -> (Z.abs c <= 2 ^ 52)%Z ->
  (forall i j, (0 <= i < nrows im)%Z -> (0 <= j < ncols im)%Z ->
     in_window a (IZR r) i -> in_window a (IZR c) j -> f64_is (px im i j) (val i j)) ->
  exists v e, lanczos_point im a Y X = Ok (v, e) /\
    (inb im r c -> Rabs (val r c) <= bpow radix2 900 ->
     near v (val r c) (Rabs (val r c) * / 35184372088832 + bpow radix2 (-1000))) /\
    (~ inb im r c -> f64_is v 0).
Proof.
  intros Ha HY HX Br Bc Hpx. pose proof u_val as U. pose proof eta_pos as E0. pose proof uro_pos as U0.
  rewrite point_sum, (floor_id _ _ HX), (floor_id _ _ HY), !Zfloor_IZR.
  set (ps := window_pix (nrows im) (ncols im) r c a).
  match goal with |- exists v e, Ok (?w, ?f) = _ /\ _ => exists w, f end.
  split; [reflexivity|].
  assert (W : forall i j, In (i, j) ps ->
    (0 <= i < nrows im)%Z /\ (0 <= j < ncols im)%Z /\ (r - a + 1 <= i <= r + a)%Z /\ (c - a + 1 <= j <= c + a)%Z).
  { intros i j Hin. unfold ps in Hin. apply In_window_pix in Hin. tauto. }
  assert (W' : forall i j, In (i, j) ps -> f64_is (px im i j) (val i j)).
  { intros i j Hin. destruct (W i j Hin) as (H1 & H2 & H3 & H4). apply Hpx; auto;
      apply window_floor; rewrite Zfloor_IZR; assumption. }
  assert (Sub : forall k i T, (Z.abs k <= 2 ^ 52)%Z -> (k - a + 1 <= i <= k + a)%Z -> f64_is T (IZR k) ->
    f64_is (SFsub 53 1024 T (f64_ofZ i)) (IZR (k - i))).
  { intros k i T Hk Hi HT. change (2 ^ 52)%Z with 4503599627370496%Z in Hk.
    assert (Hi' : (Z.abs i <= 2 ^ 53)%Z) by (change (2 ^ 53)%Z with 9007199254740992%Z; lia).
    assert (K : f64_is (SFsub 53 1024 T (f64_ofZ i)) (rnd (IZR k - IZR i))).
    { apply sub_is; [exact HT|apply f64_ofZ_is, Hi'|]. rewrite <- minus_IZR, <- abs_IZR.
      eapply Rle_trans; [|apply big_1000]. apply IZR_le. lia. }
    rewrite <- minus_IZR in K. rewrite rnd_id in K; [exact K|].
    apply int_format. change (2 ^ 53)%Z with 9007199254740992%Z. lia. }
  set (t := fun p : Z * Z => SFmul 53 1024 (px im (fst p) (snd p)) (kern2 a Y X p)).
  set (tv := fun p => f64_val (t p)).
  assert (Fin : forall k i T, (Z.abs k <= 2 ^ 52)%Z -> (k - a + 1 <= i <= k + a)%Z -> f64_is T (IZR k) ->
    near (lanczos_kernel a (SFsub 53 1024 T (f64_ofZ i))) (if (i =? k)%Z then 1 else 0) (72 * u)).
  { intros k i T Hk Hi HT. pose proof (Sub k i T Hk Hi HT) as K. destruct (Z.eqb_spec i k) as [->|N].
    - apply kern_zero; [exact Ha|]. rewrite Z.sub_diag in K. exact K.
    - apply near_weaken with 0; [|lra]. apply is_near.
      apply (kern_int a (k - i)); [exact Ha|lia|lia|exact K]. }
  assert (Tz : forall p, In p ps -> p <> (r, c) -> f64_is (t p) 0).
  { intros [i j] Hin N. destruct (W i j Hin) as (H1 & H2 & H3 & H4). unfold t. cbn [fst snd].
    assert (KZ : f64_is (kern2 a Y X (i, j)) 0).
    { unfold kern2. cbn [fst snd].
      destruct (Fin r i Y Br H3 HY) as (ky & Hky & _). destruct (Fin c j X Bc H4 HX) as (kx & Hkx & _).
      destruct (Z.eq_dec i r) as [Ei|Ni].
      - assert (Nj : (c - j <> 0)%Z) by (intros Ej; apply N; f_equal; lia).
        pose proof (kern_int a (c - j) _ Ha ltac:(lia) Nj (Sub c j X Bc H4 HX)) as Kx.
        apply (mul_zero_is _ _ 0 ky); [exact Kx|exact Hky|ring].
      - pose proof (kern_int a (r - i) _ Ha ltac:(lia) ltac:(lia) (Sub r i Y Br H3 HY)) as Ky.
        apply (mul_zero_is _ _ kx 0); [exact Hkx|exact Ky|ring]. }
    apply (mul_zero_is _ _ (val i j) 0); [apply W', Hin|exact KZ|ring]. }
  assert (Z0 : f64_is (fzero : f64) 0) by (apply (f64_ofZ_is 0); cbn; lia).
  assert (Ef : fold_left (fun v p => fadd v (fmul (px im (fst p) (snd p)) (kern2 a Y X p))) ps fzero
               = fold_left (SFadd 53 1024) (map t ps) (fzero : f64)).
  { rewrite fold_map. reflexivity. }
  rewrite Ef.
  pose proof (window_len (nrows im) (ncols im) r c a Ha) as Lp. fold ps in Lp.
  assert (Lp' : INR (length ps) <= 36).
  { change 36 with (IZR (Z.of_nat 36)). rewrite <- INR_IZR_INZ. apply le_INR, Lp. }
  assert (PB : (1 + u) ^ length ps <= 1 + 72 * u).
  { eapply Rle_trans; [apply pow_bound; rewrite U; lra|]. rewrite U. lra. }
  pose proof (pow_ge_1 (length ps)) as PG.
  assert (F2 : (forall p, In p ps -> f64_is (t p) (tv p)) -> Forall2 f64_is (map t ps) (map tv ps)).
  { clear. intros T. induction ps as [|p ps IH]; cbn [map]; constructor.
    - apply T. left. reflexivity.
    - apply IH. intros q Hq. apply T. right. exact Hq. }
  assert (Nd : NoDup ps) by apply NoDup_window_pix.
  assert (Iff : inb im r c <-> In (r, c) ps).
  { unfold ps, inb. rewrite In_window_pix. lia. }
  split.
  - intros Hin Bv. apply Iff in Hin. set (p0 := val r c) in *.
    assert (big900 : bpow radix2 900 * 4 <= bpow radix2 1000).
    { change 4 with (bpow radix2 2). rewrite <- bpow_plus. apply bpow_le. lia. }
    assert (eta1 : eta <= 1) by (apply (bpow_le radix2 (-1075) 0); lia).
    assert (one900 : 1 <= bpow radix2 900) by (apply (bpow_le radix2 0 900); lia).
    assert (KC : near (kern2 a Y X (r, c)) 1 (146 * u)).
    { pose proof (Fin r r Y Br ltac:(lia) HY) as K1. pose proof (Fin c c X Bc ltac:(lia) HX) as K2.
      rewrite Z.eqb_refl in K1, K2. unfold kern2. cbn [fst snd].
      replace 1 with (1 * 1) by ring.
      eapply near_weaken; [apply (mul_near _ _ _ _ _ _ 1 1 K2 K1)|]; rewrite ?Rabs_R1, ?U; lra. }
    destruct KC as (k' & Hk & Ek).
    pose proof (abs_near _ _ _ Ek) as Ak. rewrite Rabs_R1 in Ak.
    pose proof (Rabs_pos p0) as P0.
    assert (B1 : Rabs (p0 * k') <= Rabs p0 * 2).
    { rewrite Rabs_mult. apply Rmult_le_compat_l; [lra|]. rewrite U in *. lra. }
    assert (Ht : f64_is (t (r, c)) (rnd (p0 * k'))).
    { unfold t. cbn [fst snd]. apply mul_is; [apply W', Hin|exact Hk|]. lra. }
    assert (Ev : tv (r, c) = rnd (p0 * k')) by (unfold tv; apply Ht).
    assert (R3 : Rabs (tv (r, c) - p0) <= Rabs p0 * (148 * u) + eta).
    { rewrite Ev. replace (rnd (p0 * k') - p0) with ((rnd (p0 * k') - p0 * k') + p0 * (k' - 1)) by ring.
      eapply Rle_trans; [apply Rabs_triang|]. rewrite Rabs_mult. pose proof (rnd_fine (p0 * k')) as R1.
      assert (Rabs p0 * Rabs (k' - 1) <= Rabs p0 * (146 * u)) by (apply Rmult_le_compat_l; lra).
      assert (u * Rabs (p0 * k') <= u * (Rabs p0 * 2)) by (apply Rmult_le_compat_l; lra). lra. }
    pose proof (abs_near _ _ _ R3) as A3.
    assert (T : forall p, In p ps -> f64_is (t p) (tv p)).
    { intros p Hp. assert (D : p = (r, c) \/ p <> (r, c)).
      { destruct p as [i j]. destruct (Z.eq_dec i r), (Z.eq_dec j c); subst;
          [left; reflexivity|right; intros E; inversion E; contradiction..]. }
      destruct D as [-> | D]; [rewrite Ev; exact Ht|].
      pose proof (Tz p Hp D) as K. replace (tv p) with 0; [exact K|]. symmetry. apply K. }
    assert (TZ : forall p, In p ps -> p <> (r, c) -> tv p = 0) by (intros p Hp N; apply (Tz p Hp N)).
    assert (As : asum (map tv ps) = Rabs (tv (r, c))).
    { unfold asum. rewrite map_map, rsum_same.
      apply (rsum_single _ (fun p => Rabs (tv p))); [exact Nd|exact Hin|].
      intros p Hp N. rewrite (TZ p Hp N). apply Rabs_R0. }
    assert (Rs : RoundSum.rsum (map tv ps) = tv (r, c)).
    { rewrite rsum_same. apply (rsum_single _ tv); [exact Nd|exact Hin|exact TZ]. }
    pose proof (Rabs_pos (tv (r, c))) as TP.
    assert (TB : Rabs (tv (r, c)) <= 2 * Rabs p0 + eta) by (rewrite U in *; lra).
    destruct (fold_add_error _ _ (F2 T) (fzero : f64) 0 Z0) as (s & Hs & Es).
    { rewrite map_length, Rabs_R0, Rplus_0_l, As.
      apply Rle_trans with (2 * (2 * Rabs p0 + eta)); [apply Rmult_le_compat; rewrite ?U in *; lra|].
      assert (bpow radix2 900 * 8 <= bpow radix2 1000); [|lra].
      change 8 with (bpow radix2 3). rewrite <- bpow_plus. apply bpow_le. lia. }
    rewrite map_length, Rabs_R0, !Rplus_0_l, As, Rs in Es.
    exists s. split; [exact Hs|].
    replace (s - p0) with ((s - tv (r, c)) + (tv (r, c) - p0)) by ring.
    eapply Rle_trans; [apply Rabs_triang|].
    assert (E2 : ((1 + u) ^ length ps - 1) * Rabs (tv (r, c)) <= 72 * u * (Rabs p0 * (1 + 148 * u) + eta)).
    { apply Rmult_le_compat; lra. }
    assert (ET : 64 * eta <= bpow radix2 (-1000)).
    { unfold eta. change 64 with (bpow radix2 6). rewrite <- bpow_plus. apply bpow_le. lia. }
    rewrite U in *. lra.
  - intros N. assert (NI : ~ In (r, c) ps) by (intros K; apply N, Iff, K).
    assert (TZ : forall p, In p ps -> f64_is (t p) 0).
    { intros p Hp. apply Tz; [exact Hp|]. intros ->. contradiction. }
    assert (G : forall l (z : f64), (forall p, In p l -> f64_is (t p) 0) -> f64_is z 0 ->
      f64_is (fold_left (SFadd 53 1024) (map t l) z) 0).
    { induction l as [|p l IH]; intros z Hl Hz; [exact Hz|]. cbn [map fold_left]. apply IH.
      - intros q Hq. apply Hl. right. exact Hq.
      - pose proof (add_is z (t p) 0 0 Hz (Hl p (or_introl eq_refl))) as K. rewrite Rplus_0_l in K.
        rewrite (rnd_id 0) in K by apply generic_format_0. apply K.
        rewrite Rabs_R0. apply bpow_ge_0. }
    apply G; [exact TZ|exact Z0].
Qed.
