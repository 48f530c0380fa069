(** C62 in double arithmetic. *)
From Coq Require Import ZArith List Bool Reals Permutation Lia Lra SpecFloat.
From Flocq Require Import Core.Raux Core.Zaux.
From Verif Require Import Lib.Base Lib.Floats Model.Piff Spec.PiffSpec Spec.FloatSpec
  Proofs.F64Facts Proofs.RoundSum Proofs.CoaddF64 Proofs.PiffProofs Proofs.MedianF64.
From Coq Require Import List.
Import ListNotations.
Open Scope R_scope.

(** C62, double arithmetic: for finite statistics of values [vs], at most [B] in size, the
    model is bad if one of them differs from the median by more than the limit, and only then,
    up to 2^-50 B. For an odd number of samples the median is not rounded and a bad model is
    one with a statistic that is really beyond the limit. *)
Theorem C62_far_from_the_median_is_bad_double :
  forall (res : list f64) (vs : list R) (max_abs_t_diff : f64) (t m B : R),
  res <> [] -> Forall2 f64_is res vs -> f64_is max_abs_t_diff t -> is_median vs m ->
  Forall (fun v => Rabs v <= B) vs -> bpow radix2 (-900) <= B <= bpow radix2 998 ->
  exists b, bad_piff_model res max_abs_t_diff = Ok b /\
    ((exists v, In v vs /\ Rabs (v - m) > t + bpow radix2 (-50) * B) -> b = true) /\
    (b = true -> exists v, In v vs /\ Rabs (v - m) > t - bpow radix2 (-50) * B) /\
    (Nat.odd (length res) = true -> b = true -> exists v, In v vs /\ Rabs (v - m) > t).
Proof.
  intros res vs mx t m B Hne H Ht Hm HB BB. pose proof uro_pos as U.
  pose proof (bpow_gt_0 radix2 (-900)) as P9.
  assert (B998 : Forall (fun v => Rabs v <= bpow radix2 998) vs).
  { eapply Forall_impl; [|exact HB]. intros v Hv. cbv beta in *. destruct BB. lra. }
  destruct (bad_model_double res vs mx t Hne H Ht B998) as (b & E & Hb).
  exists b. split; [exact E|].
  rewrite <- (is_median_unique _ _ _ (median_R vs) Hm) in *. clear Hm m.
  assert (G : Forall (Generic_fmt.generic_format radix2 fexp64) vs).
  { clear -H. induction H; constructor; [now apply (fmt_of x)|assumption]. }
  destruct (rounded_median_near vs B HB ltac:(lra) G) as [N O].
  set (m := median vs) in *. set (md := rounded_median vs) in *.
  assert (K50 : bpow radix2 (-50) = 8 * uro).
  { unfold uro. change 8 with (bpow radix2 3). rewrite <- bpow_plus. reflexivity. }
  rewrite K50. assert (PB : 0 < uro * B) by nra.
  assert (Gt : Generic_fmt.generic_format radix2 fexp64 t) by now apply (fmt_of mx).
  assert (T1 : forall v, Rabs (v - md) <= Rabs (v - m) + Rabs (md - m)).
  { intros v. replace (v - md) with ((v - m) - (md - m)) by ring. eapply Rle_trans; [apply Rabs_triang|].
    rewrite Rabs_Ropp. lra. }
  assert (T2 : forall v, Rabs (v - m) <= Rabs (v - md) + Rabs (md - m)).
  { intros v. replace (v - m) with ((v - md) + (md - m)) by ring. apply Rabs_triang. }
  split; [|split].
  - intros (v & Hv & F). apply Hb. exists v. split; [exact Hv|].
    apply (rounded_far _ _ B); [|lra|].
    + assert (Rabs v <= B) by exact (proj1 (Forall_forall _ _) HB v Hv).
      assert (Bm : Rabs m <= B).
      { destruct (median_R vs) as (s & Ps & _ & Em). unfold m. rewrite Em.
        assert (Bs : Forall (fun v => Rabs v <= B) s) by (apply (Permutation_Forall Ps); exact HB).
        assert (Nn : forall k, Rabs (nth k s 0) <= B).
        { intros k. destruct (Nat.lt_ge_cases k (length s)) as [L|L].
          - apply (proj1 (Forall_forall _ _) Bs). now apply nth_In.
          - rewrite nth_overflow by exact L. rewrite Rabs_R0. lra. }
        unfold Rdiv. rewrite Rabs_mult, (Rabs_pos_eq (/ 2)) by lra.
        pose proof (sum_bound _ _ B (Nn (Nat.div (length vs - 1) 2)) (Nn (Nat.div (length vs) 2))). lra. }
      pose proof (T1 v). assert (Rabs (v - m) <= 2 * B).
      { eapply Rle_trans; [apply Rabs_triang|]. rewrite Rabs_Ropp. lra. }
      assert (uro <= / 16) by (unfold uro; change (/ 16) with (bpow radix2 (-4)); apply bpow_le; lia).
      assert (uro * B <= / 16 * B) by (apply Rmult_le_compat_r; lra). lra.
    + pose proof (T2 v). lra.
  - intros Eb. apply Hb in Eb as (v & Hv & L). exists v. split; [exact Hv|].
    apply (rounded_gt _ _ Gt) in L. pose proof (T1 v). lra.
  - intros Od Eb. apply Hb in Eb as (v & Hv & L). exists v. split; [exact Hv|].
    apply (rounded_gt _ _ Gt) in L. rewrite O in L; [exact L|].
    rewrite <- (F2_len _ _ _ H).
    revert Od. generalize (length res). intros n Od. apply Nat.odd_spec in Od as (k & ->).
    apply Z.odd_spec. exists (Z.of_nat k). lia.
Qed.

(** C62, double arithmetic: the order of the samples does not matter, whether or not some of them
    are not finite. *)
Theorem C62_order_does_not_matter_double :
  forall (res res' : list f64) (max_abs_t_diff : f64) (t : R),
  Permutation res res' -> f64_is max_abs_t_diff t ->
  (forall x, In x res -> f64_finite x = true -> exists v, f64_is x v /\ Rabs v <= bpow radix2 998) ->
  bad_piff_model res max_abs_t_diff = bad_piff_model res' max_abs_t_diff.
Proof.
  intros res res' mx t P Ht Hf. destruct res as [|x0 res0] eqn:E0; [apply Permutation_nil in P; now subst|].
  rewrite <- E0 in *. assert (Hne : res <> []) by (rewrite E0; discriminate). clear E0 x0 res0.
  assert (Hne' : res' <> []) by (intros ->; apply Permutation_sym, Permutation_nil in P; congruence).
  destruct (existsb (fun v => negb (f64_finite v)) res) eqn:Ex.
  - apply existsb_exists in Ex as (x & Hx & Nx). apply negb_true_iff in Nx.
    assert (Bad : forall l, In x l -> bad_piff_model l mx = Ok true).
    { intros l Hl. unfold bad_piff_model. destruct l as [|y l]; [destruct Hl|].
      assert (X : existsb (fun v => negb (@ffinite f64 F64Ops v)) (y :: l) = true).
      { apply existsb_exists. exists x. split; [exact Hl|]. change (ffinite x) with (f64_finite x). now rewrite Nx. }
      now rewrite X. }
    rewrite (Bad res Hx), (Bad res' (Permutation_in _ P Hx)). reflexivity.
  - assert (HF : forall x, In x res -> f64_is x (f64_val x) /\ Rabs (f64_val x) <= bpow radix2 998).
    { intros x Hx. destruct (f64_finite x) eqn:Fx.
      - destruct (Hf x Hx Fx) as (v & Hv & Bv). destruct Hv as (A1 & A2 & <-). split; [|exact Bv].
        repeat split; assumption.
      - exfalso. assert (X : existsb (fun v => negb (f64_finite v)) res = true); [|congruence].
        apply existsb_exists. exists x. split; [exact Hx|]. now rewrite Fx. }
    assert (F2 : forall l, (forall x, In x l -> In x res) -> Forall2 f64_is l (map f64_val l) /\
              Forall (fun v => Rabs v <= bpow radix2 998) (map f64_val l)).
    { induction l as [|x l IH]; intros Hl; cbn [map]; [split; constructor|].
      destruct IH as [I1 I2]; [intros y Hy; apply Hl; now right|].
      destruct (HF x (Hl x (or_introl eq_refl))) as [A1 A2]. split; constructor; assumption. }
    destruct (F2 res (fun x H => H)) as [A1 A2].
    destruct (F2 res' (fun x H => Permutation_in _ (Permutation_sym P) H)) as [A1' A2'].
    destruct (bad_model_double res _ mx t Hne A1 Ht A2) as (b & E & Hb).
    destruct (bad_model_double res' _ mx t Hne' A1' Ht A2') as (b' & E' & Hb').
    rewrite E, E'. f_equal.
    assert (Q : Permutation (map f64_val res) (map f64_val res')) by now apply Permutation_map.
    rewrite (rounded_median_perm _ _ Q) in Hb.
    assert (K : b = true <-> b' = true).
    { rewrite Hb, Hb'. split; intros (v & Hv & L); exists v; (split; [|exact L]).
      - exact (Permutation_in _ Q Hv).
      - exact (Permutation_in _ (Permutation_sym Q) Hv). }
    destruct b, b'; try reflexivity; [symmetry|]; apply K; reflexivity.
Qed.

(** Concrete: samples 3, 1, 2 and 7 with median 2.5; the farthest is 4.5 away. *)
Example C62_example_double :
  Forall2 f64_is [f64_ofZ 3; f64_ofZ 1; f64_ofZ 2; f64_ofZ 7] [3; 1; 2; 7] /\
  is_median [3; 1; 2; 7] (5 / 2) /\
  map (bad_piff_model [f64_ofZ 3; f64_ofZ 1; f64_ofZ 2; f64_ofZ 7]) [f64_ofZ 4; f64_ofZ 5]
  = [Ok true; Ok false].
Proof.
  split; [repeat (constructor; [apply f64_ofZ_is; lia|]); constructor|].
  split; [|vm_compute; reflexivity].
  exists [1; 2; 3; 7]. split; [|split].
  - apply (perm_trans (l' := [1; 3; 2; 7])); [apply perm_swap|]. apply perm_skip. apply perm_swap.
  - repeat (constructor; [|repeat constructor; lra]). constructor.
  - cbn. lra.
Qed.

Print Assumptions C62_far_from_the_median_is_bad_double.
Print Assumptions C62_order_does_not_matter_double.
