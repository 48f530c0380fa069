(** Proofs about the grid cell of a point and about header dictionaries. *)
From Coq Require Import ZArith Reals SpecFloat Lia Lra Bool List String.
From Flocq Require Import Core BinarySingleNaN.
From Verif Require Import Lib.Base Lib.Floats Lib.PyDict Lib.PyText Model.PiffCell
  Spec.FloatSpec Spec.PiffCellSpec Proofs.F64Facts Proofs.LoadInfoProofs.
Import ListNotations.
Open Scope Z_scope.

#[local] Instance Hprec : Prec_gt_0 53 := eq_refl _.
#[local] Instance Hmax : Prec_lt_emax 53 1024 := eq_refl _.
#[local] Instance fexp64_valid : Valid_exp fexp64 := fexp_correct 53 1024 _.
#[local] Instance fexp64_mono : Monotone_exp fexp64 := fexp_monotone 53 1024.

Lemma f64_is_format x v : f64_is x v -> generic_format radix2 fexp64 v.
Proof.
  intros H. apply f64_is_B in H as (b & _ & _ & <-). apply generic_format_B2R.
Qed.

(** Division by a positive integer does not overflow. *)
Lemma f64_div_int_is x v g :
  f64_is x v -> 1 <= g <= 2 ^ 53 ->
  f64_is (SFdiv 53 1024 x (f64_ofZ g)) (rnd (v / IZR g)).
Proof.
  intros Hx Hg.
  assert (Hy : f64_is (f64_ofZ g) (IZR g)) by (apply f64_ofZ_is; lia).
  assert (G1 : (1 <= IZR g)%R) by (apply IZR_le; lia).
  apply f64_is_B in Hx as (bx & -> & Fx & <-). apply f64_is_B in Hy as (b & -> & Fy & Eb).
  rewrite <- Eb in *. rewrite SFdiv_equiv.
  assert (Hw : B2R b <> 0%R) by lra.
  generalize (Bdiv_correct 53 1024 _ _ mode_NE bx b Hw).
  rewrite Rlt_bool_true.
  - intros (H1 & H2 & _). cbn in H1. rewrite <- H1. apply B_f64_is. now rewrite H2, Fx.
  - apply Rle_lt_trans with (Rabs (B2R bx)); [|apply abs_B2R_lt_emax].
    apply abs_round_le_generic; [typeclasses eauto..| |].
    + apply generic_format_abs, generic_format_B2R.
    + unfold Rdiv. rewrite Rabs_mult, Rabs_inv, (Rabs_pos_eq (B2R b)) by lra.
      rewrite <- (Rmult_1_r (Rabs (B2R bx))) at 2. apply Rmult_le_compat_l; [apply Rabs_pos|].
      rewrite <- Rinv_1. apply Rinv_le; lra.
Qed.

Lemma pred_gap_upper k : 1 <= k -> Z.abs k <= 2 ^ 53 ->
  (IZR k - pred radix2 fexp64 (IZR k) < IZR k * bpow radix2 (-52))%R.
Proof.
  intros Hk Hb. assert (K1 : (1 <= IZR k)%R) by (apply IZR_le; lia).
  rewrite pred_eq_pos by lra. unfold pred_pos.
  destruct (mag radix2 (IZR k)) as (e & He); cbn [mag_val].
  specialize (He ltac:(lra)). rewrite Rabs_pos_eq in He by lra.
  assert (E1 : 1 <= e).
  { apply (Zlt_le_succ 0), (lt_bpow radix2). change (bpow radix2 0) with 1%R. lra. }
  case Req_bool_spec; intros Hp.
  - replace (fexp64 (e - 1)) with ((e - 1) + -53) by (unfold SpecFloat.fexp, SpecFloat.emin; lia).
    rewrite bpow_plus, <- Hp.
    assert (bpow radix2 (-53) < bpow radix2 (-52))%R by (apply bpow_lt; lia). nra.
  - rewrite ulp_neq_0 by lra. unfold cexp.
    rewrite (mag_unique radix2 (IZR k) e) by (rewrite Rabs_pos_eq by lra; assumption).
    replace (fexp64 e) with ((e - 1) + -52) by (unfold SpecFloat.fexp, SpecFloat.emin; lia).
    rewrite bpow_plus.
    assert (0 < bpow radix2 (-52))%R by apply bpow_gt_0.
    assert (bpow radix2 (e - 1) < IZR k)%R by lra. nra.
Qed.

Lemma pred_gap_lower k : 1 <= k -> Z.abs k <= 2 ^ 53 ->
  (IZR k * bpow radix2 (-53) <= IZR k - pred radix2 fexp64 (IZR k))%R.
Proof.
  intros Hk Hb. assert (K1 : (1 <= IZR k)%R) by (apply IZR_le; lia).
  rewrite pred_eq_pos by lra. unfold pred_pos.
  destruct (mag radix2 (IZR k)) as (e & He); cbn [mag_val].
  specialize (He ltac:(lra)). rewrite Rabs_pos_eq in He by lra.
  assert (E1 : 1 <= e).
  { apply (Zlt_le_succ 0), (lt_bpow radix2). change (bpow radix2 0) with 1%R. lra. }
  case Req_bool_spec; intros Hp.
  - replace (fexp64 (e - 1)) with ((e - 1) + -53) by (unfold SpecFloat.fexp, SpecFloat.emin; lia).
    rewrite bpow_plus, <- Hp. lra.
  - rewrite ulp_neq_0 by lra. unfold cexp.
    rewrite (mag_unique radix2 (IZR k) e) by (rewrite Rabs_pos_eq by lra; assumption).
    replace (fexp64 e) with (e + -53) by (unfold SpecFloat.fexp, SpecFloat.emin; lia).
    rewrite bpow_plus.
    assert (0 < bpow radix2 (-53))%R by apply bpow_gt_0. nra.
Qed.

(** A double below an integral multiple of [g] has a rounded quotient below
    that multiple: the floor of the rounded quotient is the floor of the exact one. *)
Lemma rnd_quotient_lt v g k :
  generic_format radix2 fexp64 v -> 1 <= g -> 1 <= k -> k * g <= 2 ^ 53 ->
  (v < IZR (k * g))%R -> (rnd (v / IZR g) < IZR k)%R.
Proof.
  intros Fv Hg Hk Hb Hv.
  assert (G1 : (1 <= IZR g)%R) by (apply IZR_le; lia).
  assert (K1 : (1 <= IZR k)%R) by (apply IZR_le; lia).
  assert (Fk : generic_format radix2 fexp64 (IZR k)) by (apply int_format; nia).
  assert (Fkg : generic_format radix2 fexp64 (IZR (k * g))) by (apply int_format; nia).
  assert (P1 : (v <= pred radix2 fexp64 (IZR (k * g)))%R) by (apply pred_ge_gt; auto; typeclasses eauto).
  pose proof (pred_gap_lower (k * g) ltac:(nia) ltac:(nia)) as L.
  pose proof (pred_gap_upper k Hk ltac:(nia)) as U.
  assert (Fp : generic_format radix2 fexp64 (pred radix2 fexp64 (IZR k)))
    by (apply generic_format_pred; auto; typeclasses eauto).
  apply Rle_lt_trans with (pred radix2 fexp64 (IZR k)).
  - apply round_N_le_midp; auto; try typeclasses eauto.
    rewrite succ_pred by (auto; typeclasses eauto).
    assert (B : (bpow radix2 (-52) = 2 * bpow radix2 (-53))%R).
    { change (-52) with (1 + -53). rewrite bpow_plus. reflexivity. }
    rewrite B in U. rewrite mult_IZR in L, P1.
    set (q := bpow radix2 (-53)) in *.
    assert (V : (v / IZR g <= IZR k - IZR k * q)%R).
    { apply Rmult_le_reg_r with (IZR g); [lra|].
      unfold Rdiv. rewrite Rmult_assoc, Rinv_l by lra. nra. }
    lra.
  - apply pred_lt_id. lra.
Qed.

Lemma rnd_quotient_ge v g k :
  1 <= g -> 0 <= k <= 2 ^ 53 -> (IZR (k * g) <= v)%R -> (IZR k <= rnd (v / IZR g))%R.
Proof.
  intros Hg Hk Hv. assert (G1 : (1 <= IZR g)%R) by (apply IZR_le; lia).
  rewrite <- (rnd_id (IZR k)) by (apply int_format; lia).
  apply round_le; [typeclasses eauto..|]. rewrite mult_IZR in Hv.
  apply Rmult_le_reg_r with (IZR g); [lra|].
  unfold Rdiv. rewrite Rmult_assoc, Rinv_l by lra. lra.
Qed.

Lemma clipped_floor_covers x v g n :
  f64_is x v -> 1 <= g -> 1 <= n -> n * g <= 2 ^ 53 ->
  cell_covers g n (clipped_floor (F := f64) (SFdiv 53 1024 x (f64_ofZ g)) n) v.
Proof.
  intros Hx Hg Hn Hb.
  pose proof (f64_is_format _ _ Hx) as Fv.
  unfold clipped_floor. change (@ffloor f64 F64Ops) with f64_floor.
  rewrite (f64_floor_is _ _ (f64_div_int_is x v g Hx ltac:(nia))).
  set (q := rnd (v / IZR g)). set (z := Zfloor q).
  assert (Z1 : (IZR z <= q)%R) by apply Zfloor_lb.
  assert (Z2 : (q < IZR (z + 1))%R) by (rewrite plus_IZR; apply Zfloor_ub).
  set (c := Z.min (Z.max z 0) (n - 1)).
  assert (Hc : 0 <= c < n) by (unfold c; lia).
  split; [exact Hc|]. split.
  - destruct (Z.eq_dec c 0) as [|C0]; [now left|right].
    apply Rnot_lt_le. intros L.
    pose proof (rnd_quotient_lt v g c Fv Hg ltac:(lia) ltac:(nia) L) as L'.
    assert (IZR c <= IZR z)%R by (apply IZR_le; unfold c in *; lia).
    fold q in L'. lra.
  - destruct (Z.eq_dec c (n - 1)) as [|C0]; [now left|right].
    apply Rnot_le_lt. intros L.
    pose proof (rnd_quotient_ge v g (c + 1) Hg ltac:(nia) L) as L'. fold q in L'.
    assert (IZR (z + 1) <= IZR (c + 1))%R by (apply IZR_le; unfold c in *; lia). lra.
Qed.

Lemma cell_unique g n k k' v :
  1 <= g -> cell_covers g n k v -> cell_covers g n k' v -> k = k'.
Proof.
  assert (W : forall a b, 1 <= g -> cell_covers g n a v -> cell_covers g n b v -> ~ a < b).
  { intros a b Hg (A1 & A2 & A3) (B1 & B2 & B3) L.
    destruct A3 as [->|A3]; [lia|]. destruct B2 as [->|B2]; [lia|].
    assert (IZR ((a + 1) * g) <= IZR (b * g))%R by (apply IZR_le; nia). lra. }
  intros Hg H1 H2. pose proof (W _ _ Hg H1 H2). pose proof (W _ _ Hg H2 H1). lia.
Qed.

Lemma pyindex_in n k : 0 <= k < n -> pyindex n k = Some k.
Proof.
  intros H. unfold pyindex. destruct (Z.leb_spec 0 k); [|lia]. destruct (Z.ltb_spec k n); [|lia].
  reflexivity.
Qed.

(** ** Headers *)

Lemma upper_header_get {V} (cards : list (option string * V)) acc name :
  dget (fold_left (fun acc kv => match fst kv with
                                 | Some k => dset acc (upper k) (snd kv)
                                 | None => acc
                                 end) cards acc) name
  = match last_named upper cards name with Some v => Some v | None => dget acc name end.
Proof.
  revert acc. induction cards as [|[k v] cards IH]; intros acc; cbn [fold_left last_named fst snd].
  - reflexivity.
  - rewrite IH. destruct (last_named upper cards name) as [u|]; [reflexivity|].
    destruct k as [k|]; [|reflexivity].
    rewrite dget_dset. destruct (String.eqb (upper k) name); reflexivity.
Qed.

Lemma last_named_some {V} (cards : list (option string * V)) name :
  last_named upper cards name <> None <-> exists k v, In (Some k, v) cards /\ upper k = name.
Proof.
  induction cards as [|[k v] cards IH]; cbn [last_named In].
  - split; [congruence|]. intros (k & v & [] & _).
  - destruct (last_named upper cards name) as [u|].
    + split; [|discriminate]. intros _. destruct (proj1 IH) as (k' & v' & I & E); [discriminate|].
      exists k', v'. auto.
    + assert (N : ~ exists k v, In (Some k, v) cards /\ upper k = name) by (rewrite <- IH; tauto).
      destruct k as [k|].
      * destruct (String.eqb (upper k) name) eqn:E.
        -- apply String.eqb_eq in E. split; [|discriminate]. intros _. exists k, v. auto.
        -- apply String.eqb_neq in E. split; [congruence|].
           intros (k' & v' & [I|I] & E'); [congruence|]. exfalso. apply N. eauto.
      * split; [congruence|]. intros (k' & v' & [I|I] & E'); [congruence|]. exfalso. apply N. eauto.
Qed.

Lemma dset_nodup {V} (d : dict V) k v : NoDup (dkeys d) -> NoDup (dkeys (dset d k v)).
Proof.
  unfold dkeys. induction d as [|[a w] d IH]; cbn [dset map fst]; intros H.
  - constructor; [intros []|constructor].
  - apply NoDup_cons_iff in H as [N H]. destruct (String.eqb a k) eqn:E; cbn [map fst].
    + constructor; assumption.
    + constructor; [|now apply IH]. intros I.
      apply String.eqb_neq in E.
      assert (X : forall d, In a (map fst (dset d k v)) -> In a (map (@fst string V) d)).
      { clear - E. induction d as [|[b u] d IH]; cbn [dset map fst In].
        - intros [X|[]]. congruence.
        - destruct (String.eqb b k); cbn [map fst In]; intuition. }
      apply N, X, I.
Qed.

Definition header_step {V} (acc : dict V) (kv : option string * V) : dict V :=
  match fst kv with Some k => dset acc (upper k) (snd kv) | None => acc end.

Lemma upper_header_nodup {V} (cards : list (option string * V)) : NoDup (dkeys (upper_header cards)).
Proof.
  change (upper_header cards) with (fold_left header_step cards []).
  assert (G : forall acc : dict V, NoDup (dkeys acc) -> NoDup (dkeys (fold_left header_step cards acc))).
  { induction cards as [|[[k|] v] cards IH]; intros acc H; cbn [fold_left]; [exact H| |];
      apply IH; unfold header_step; cbn [fst snd]; [now apply dset_nodup|exact H]. }
  apply G. constructor.
Qed.

Lemma upper_header_filter {V} (cards : list (option string * V)) :
  upper_header cards
  = upper_header (filter (fun c => match fst c with None => false | Some _ => true end) cards).
Proof.
  unfold upper_header. generalize (@nil (string * V)).
  induction cards as [|[[k|] v] cards IH]; intros acc; cbn [fold_left filter fst snd]; auto.
Qed.

Lemma upper_header_same {V} (cards cards' : list (option string * V)) :
  Forall2 (same_card upper) cards cards' -> upper_header cards = upper_header cards'.
Proof.
  intros H. unfold upper_header. generalize (@nil (string * V)).
  induction H as [|[k v] [k' v'] cards cards' [E1 E2] H IH]; intros acc; cbn [fold_left]; [reflexivity|].
  cbn [fst snd] in *. subst v'. destruct k as [k|], k' as [k'|]; cbn in E2; try discriminate.
  - injection E2 as ->. apply IH.
  - apply IH.
Qed.

Lemma dset_new {V} (d : dict V) k v : ~ In k (dkeys d) -> dset d k v = d ++ [(k, v)].
Proof.
  unfold dkeys. induction d as [|[a w] d IH]; cbn [dset map fst In app]; intros H; [reflexivity|].
  destruct (String.eqb a k) eqn:E; [apply String.eqb_eq in E; tauto|]. now rewrite IH by tauto.
Qed.

Lemma upper_header_id {V} (h : dict V) :
  NoDup (dkeys h) -> (forall name, In name (dkeys h) -> upper name = name) ->
  upper_header (map (fun kv => (Some (fst kv), snd kv)) h) = h.
Proof.
  intros N U. unfold upper_header.
  assert (G : forall h acc : dict V, NoDup (dkeys (acc ++ h)) -> (forall name, In name (dkeys h) -> upper name = name) ->
    fold_left header_step (map (fun kv => (Some (fst kv), snd kv)) h) acc = acc ++ h).
  { clear. induction h as [|[k v] h IH]; intros acc N U; cbn [map fold_left fst snd].
    - now rewrite app_nil_r.
    - unfold header_step at 2. cbn [fst snd]. rewrite U by (left; reflexivity).
      rewrite dset_new.
      + rewrite IH, <- app_assoc; [reflexivity| |].
        * rewrite <- app_assoc. exact N.
        * intros name I. apply U. now right.
      + unfold dkeys in N. rewrite map_app in N. cbn [map fst] in N.
        apply NoDup_remove_2 in N. intros I. apply N, in_or_app. now left. }
  exact (G h [] N U).
Qed.

Lemma upper_char_upper c : upper_char (upper_char c) = upper_char c.
Proof. destruct c as [[] [] [] [] [] [] [] []]; reflexivity. Qed.

Lemma upper_upper s : upper (upper s) = upper s.
Proof. induction s as [|c s IH]; cbn [upper]; [reflexivity|]. now rewrite upper_char_upper, IH. Qed.
