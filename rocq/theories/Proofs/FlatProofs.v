(** The sum of the Lanczos kernel over the pixels of a window. *)
From Coq Require Import ZArith List Bool Reals Lia Lra.
From Flocq Require Import Core.
From Verif Require Import Lib.Base Lib.Floats Model.Lanczos Spec.LanczosSpec
  Proofs.BaseFacts Proofs.PolyPos Proofs.LanczosProofs Proofs.SincProofs.
Import ListNotations.
Open Scope R_scope.

(** ** Polynomial pieces close to the kernel, times 10^12 *)

Definition q10 : list Z :=
  [1000000007013; -2017111; -3289772615217; -1760897047; 4345939066601; -91894028304;
  -2735386584824; -699961768013; 2322253079621; -818131367185; -101867328162; 70584461044]%Z.
Definition q20 : list Z :=
  [1000000000103; -29470; -2056166203739; -24889447; 1539155473530; -1186583755;
  -607259511210; -7079057918; 157839916764; -795500746; -31968812243; 7485198328]%Z.
Definition q21 : list Z :=
  [-276; -636619692942; 1273235766966; -77193374353; -1119385061014; 348285994462;
  416269076840; -134896721447; -144917995728; 87049906945; -10502761910; -1325137825]%Z.
Definition q30 : list Z :=
  [1000000000010; -2893; -1827704387445; -2219907; 1122427271114; -74502705;
  -355732851301; 166206512; 68248140210; 3072459576; -13083182863; 2683069728]%Z.
Definition q31 : list Z :=
  [-50; -826993328718; 1153986004321; 332831884758; -905891427572; 20738518409;
  302160552319; -28453914172; -66582357443; 14185677799; 5853350765; -1834960483]%Z.
Definition q32 : list Z :=
  [64; 206748314468; -331747477041; -173405069441; 484945511853; -77665174105;
  -181583754147; 47787027681; 46622897690; -23949543116; 1658199561; 589066599]%Z.

Definition knum (a : Z) : list Z := pmul topZ (pdil a topZ).
Definition kden (a : Z) : list Z := pscal (a ^ 3) (pmul denZ (pdil a denZ)).

Lemma knum_len : length topZ = 14%nat /\ length denZ = 11%nat.
Proof. split; vm_compute; reflexivity. Qed.

Lemma kernel_ratio : forall (a : Z) (u : R), (1 <= a)%Z -> 0 <= u ->
  0 < peval (kden a) u /\ lanczos_kernel a u = peval (knum a) u / peval (kden a) u.
Proof.
  intros a u Ha Hu. assert (HA : 1 <= IZR a) by (apply (IZR_le 1); assumption).
  assert (DL : forall p, peval (pdil a p) u = IZR a ^ length p * peval p (u / IZR a)).
  { intros p. rewrite <- peval_dil by lia. f_equal. field. lra. }
  unfold knum, kden. rewrite peval_scal, !peval_mul, !DL.
  destruct knum_len as [-> ->]. rewrite !denZ_ok, !topZ_ok.
  replace (IZR (a ^ 3)) with (IZR a ^ 3) by (rewrite (pow_IZR a 3); reflexivity).
  pose proof (pden_pos u) as D1. pose proof (pden_pos (u / IZR a)) as D2.
  assert (HP : forall n, 0 < IZR a ^ n) by (intros; apply pow_lt; lra).
  split.
  - apply Rmult_lt_0_compat; [apply HP|]. apply Rmult_lt_0_compat; [assumption|].
    apply Rmult_lt_0_compat; [apply HP|assumption].
  - unfold lanczos_kernel. cbn [fmul fdiv fofZ ROps]. rewrite !sinc_R.
    rewrite !Rabs_right.
    2:{ apply Rle_ge, Rmult_le_pos; [assumption|]. left. apply Rinv_0_lt_compat. lra. }
    2:{ lra. }
    replace (IZR a ^ 14) with (IZR a ^ 3 * IZR a ^ 11) by ring.
    pose proof (HP 3%nat) as P3. pose proof (HP 11%nat) as P11.
    generalize dependent (pden u). generalize dependent (pden (u / IZR a)).
    generalize (pnum u) (pnum (u / IZR a)). generalize dependent (IZR a ^ 3).
    generalize dependent (IZR a ^ 11). intros. field. repeat split; lra.
Qed.

Definition ktol : Z := 100000.
Definition kone : Z := 1000000000000.

Definition kgap (num den q : list Z) : list Z * list Z :=
  let A := pscal ktol den in
  let B := padd (pscal kone num) (pscal (-1) (pmul q den)) in
  (padd A B, padd A (pscal (-1) B)).

Lemma kgap_poly : forall (num den q : list Z) (M : Z) (s : R),
  both M 0 M (kgap num den q) = true -> (0 < M)%Z -> 0 <= s <= 1 -> 0 < peval den s ->
  Rabs (10 ^ 12 * (peval num s / peval den s) - peval q s) <= 10 ^ 5.
Proof.
  intros num den q M s H HM Hs HD. unfold both in H. apply andb_true_iff in H. destruct H as [H1 H2].
  assert (HMR : 0 < IZR M) by (apply IZR_lt; assumption).
  assert (Hs' : IZR 0 / IZR M <= s <= IZR M / IZR M).
  { replace (IZR M / IZR M) with 1 by (field; lra). unfold Rdiv. lra. }
  pose proof (check_ok _ _ _ _ _ HM HM H1 Hs') as P1.
  pose proof (check_ok _ _ _ _ _ HM HM H2 Hs') as P2.
  unfold kgap, fst, snd in P1, P2.
  repeat (rewrite peval_add in P1 || rewrite peval_scal in P1 || rewrite peval_mul in P1).
  repeat (rewrite peval_add in P2 || rewrite peval_scal in P2 || rewrite peval_mul in P2).
  assert (K1 : IZR ktol = 100000) by reflexivity. assert (K2 : IZR kone = 1000000000000) by reflexivity.
  rewrite K1, K2 in P1, P2. clear K1 K2.
  revert HD P1 P2. generalize (peval den s) (peval num s) (peval q s).
  clear. intros d n p HD P1 P2.
  assert (E : 10 ^ 12 * (n / d) - p = (1000000000000 * n - p * d) / d) by (field; lra).
  rewrite E. unfold Rdiv. rewrite Rabs_mult, (Rabs_right (/ d)).
  2:{ apply Rle_ge. left. apply Rinv_0_lt_compat. assumption. }
  apply Rmult_le_reg_r with d; [assumption|].
  rewrite Rmult_assoc, Rinv_l, Rmult_1_r by lra. apply Rabs_le. lra.
Qed.

Lemma kgap_ok : forall (a j : Z) (q : list Z) (M : Z) (s : R),
  both M 0 M (kgap (pshift j (knum a)) (pshift j (kden a)) q) = true ->
  (0 < M)%Z -> (1 <= a)%Z -> (0 <= j)%Z -> 0 <= s <= 1 ->
  Rabs (10 ^ 12 * lanczos_kernel a (IZR j + s) - peval q s) <= 10 ^ 5.
Proof.
  intros a j q M s H HM Ha Hj Hs.
  assert (Hu : 0 <= IZR j + s) by (apply (IZR_le 0) in Hj; lra).
  destruct (kernel_ratio a _ Ha Hu) as [HD ->].
  rewrite <- (peval_shift j (kden a)) in HD. rewrite <- (peval_shift j (kden a)), <- (peval_shift j (knum a)).
  exact (kgap_poly _ _ q M s H HM Hs HD).
Qed.

Lemma kcheck10 : both 2 0 2 (kgap (pshift 0 (knum 1)) (pshift 0 (kden 1)) q10) = true.
Proof. vm_compute. reflexivity. Qed.
Lemma kcheck20 : both 2 0 2 (kgap (pshift 0 (knum 2)) (pshift 0 (kden 2)) q20) = true.
Proof. vm_compute. reflexivity. Qed.
Lemma kcheck21 : both 2 0 2 (kgap (pshift 1 (knum 2)) (pshift 1 (kden 2)) q21) = true.
Proof. vm_compute. reflexivity. Qed.
Lemma kcheck30 : both 2 0 2 (kgap (pshift 0 (knum 3)) (pshift 0 (kden 3)) q30) = true.
Proof. vm_compute. reflexivity. Qed.
Lemma kcheck31 : both 2 0 2 (kgap (pshift 1 (knum 3)) (pshift 1 (kden 3)) q31) = true.
Proof. vm_compute. reflexivity. Qed.
Lemma kcheck32 : both 2 0 2 (kgap (pshift 2 (knum 3)) (pshift 2 (kden 3)) q32) = true.
Proof. vm_compute. reflexivity. Qed.

(** [p (1 - x)]. *)
Fixpoint pneg (p : list Z) : list Z :=
  match p with [] => [] | a :: p => a :: pscal (-1) (pneg p) end.
Definition pflip (p : list Z) : list Z := pneg (pshift 1 p).

Lemma peval_neg : forall p x, peval (pneg p) x = peval p (- x).
Proof.
  induction p as [|a p IH]; intros x; [reflexivity|]. cbn [pneg peval]. rewrite peval_scal, IH.
  change (IZR (-1)) with (-1). ring.
Qed.

Lemma peval_flip : forall p x, peval (pflip p) x = peval p (1 - x).
Proof. intros p x. unfold pflip. rewrite peval_neg, peval_shift. f_equal. Qed.

Definition sym (p : list Z) : list Z := padd p (pflip p).

Definition within (lo hi : Z) (p : list Z) : bool :=
  check 2 0 2 (padd p [- lo]%Z) && check 2 0 2 (padd (pscal (-1) p) [hi]).

Lemma within_ok : forall lo hi p s, within lo hi p = true -> 0 <= s <= 1 ->
  IZR lo <= peval p s <= IZR hi.
Proof.
  intros lo hi p s H Hs. unfold within in H. apply andb_true_iff in H. destruct H as [H1 H2].
  pose proof (check_ok 2 0 2 _ s eq_refl eq_refl H1 ltac:(lra)) as P1.
  pose proof (check_ok 2 0 2 _ s eq_refl eq_refl H2 ltac:(lra)) as P2.
  rewrite peval_add in P1, P2. rewrite peval_scal in P2.
  change (peval [- lo]%Z s) with (IZR (- lo) + s * 0) in P1. rewrite opp_IZR in P1.
  change (peval [hi] s) with (IZR hi + s * 0) in P2. change (IZR (-1)) with (-1) in P2. lra.
Qed.

Definition total1 : list Z := sym q10.
Definition total2 : list Z := sym (padd q20 q21).
Definition total3 : list Z := sym (padd q30 (padd q31 q32)).

Lemma total1_ok : within 810500000000 1000009000000 total1 = true.
Proof. vm_compute. reflexivity. Qed.
Lemma total2_ok : within 999991000000 1018950000000 total2 = true.
Proof. vm_compute. reflexivity. Qed.
Lemma total3_ok : within 994290000000 1000009000000 total3 = true.
Proof. vm_compute. reflexivity. Qed.

Lemma kern_even : forall (a : Z) (d : R), lanczos_kernel a (- d) = lanczos_kernel a d.
Proof.
  intros a d. unfold lanczos_kernel. cbn [fmul fdiv fofZ ROps].
  replace (- d / IZR a) with (- (d / IZR a)) by (unfold Rdiv; ring).
  rewrite !sinc_even. reflexivity.
Qed.

(** The kernel summed over the window along one axis. *)
Definition axis_gain (a : Z) (t : R) : R :=
  rsum (map (fun i => lanczos_kernel a (t - IZR i)) (zrange (Zfloor t - a + 1) (Zfloor t + a + 1))).

Lemma zrange_map : forall (n : nat) (lo k : Z),
  zrange (lo + k) (lo + k + Z.of_nat n) = map (fun i => (lo + i)%Z) (zrange k (k + Z.of_nat n)).
Proof.
  intros n lo k. apply nth_ext with (d := 0%Z) (d' := (lo + 0)%Z).
  - rewrite map_length, !zrange_length. lia.
  - intros m Hm. rewrite zrange_length in Hm.
    rewrite (map_nth (fun i => (lo + i)%Z)), !nth_zrange by lia. lia.
Qed.

Lemma gain_frac : forall a t, (1 <= a)%Z ->
  axis_gain a t = rsum (map (fun i => lanczos_kernel a ((t - IZR (Zfloor t)) - IZR i)) (zrange (1 - a) (a + 1))).
Proof.
  intros a t Ha. unfold axis_gain.
  pose proof (zrange_map (Z.to_nat (2 * a)) (Zfloor t) (1 - a)) as E.
  replace (Zfloor t + (1 - a))%Z with (Zfloor t - a + 1)%Z in E by lia.
  replace (Zfloor t - a + 1 + Z.of_nat (Z.to_nat (2 * a)))%Z with (Zfloor t + a + 1)%Z in E by lia.
  replace (1 - a + Z.of_nat (Z.to_nat (2 * a)))%Z with (a + 1)%Z in E by lia.
  rewrite E, map_map. f_equal. apply map_ext. intros i. f_equal. rewrite plus_IZR. ring.
Qed.

Lemma gain_bounds : forall a t, (1 <= a <= 3)%Z ->
  (a = 1%Z -> 810499 / 10 ^ 6 <= axis_gain a t <= 1000010 / 10 ^ 6) /\
  (a = 2%Z -> 999990 / 10 ^ 6 <= axis_gain a t <= 1018951 / 10 ^ 6) /\
  (a = 3%Z -> 994289 / 10 ^ 6 <= axis_gain a t <= 1000010 / 10 ^ 6).
Proof.
  intros a t Ha.
  set (s := t - IZR (Zfloor t)).
  assert (Hs : 0 <= s <= 1) by (unfold s; pose proof (Zfloor_lb t); pose proof (Zfloor_ub t); lra).
  assert (Hs' : 0 <= 1 - s <= 1) by lra.
  assert (N : forall (b i : Z) (x : R), x = - (s - IZR i) -> lanczos_kernel b (s - IZR i) = lanczos_kernel b x).
  { intros b i x ->. symmetry. apply kern_even. }
  assert (AB : forall u v w, Rabs (u - v) <= w -> v - w <= u <= v + w).
  { intros u v w H. pose proof (Rle_abs (u - v)). pose proof (Rle_abs (- (u - v))) as K.
    rewrite Rabs_Ropp in K. lra. }
  split; [|split]; intros ->; rewrite gain_frac by lia; fold s.
  - change (zrange (1 - 1) (1 + 1)) with [0; 1]%Z. cbn [map rsum].
    replace (s - 0) with (IZR 0 + s) by lra. rewrite (N 1%Z 1%Z (IZR 0 + (1 - s))) by lra.
    pose proof (within_ok _ _ _ s total1_ok Hs) as W. unfold total1, sym in W.
    rewrite peval_add, peval_flip in W.
    pose proof (AB _ _ _ (kgap_ok 1 0 q10 2 s kcheck10 eq_refl ltac:(lia) ltac:(lia) Hs)).
    pose proof (AB _ _ _ (kgap_ok 1 0 q10 2 (1 - s) kcheck10 eq_refl ltac:(lia) ltac:(lia) Hs')).
    lra.
  - change (zrange (1 - 2) (2 + 1)) with [-1; 0; 1; 2]%Z. cbn [map rsum].
    replace (s - -1) with (IZR 1 + s) by lra. replace (s - 0) with (IZR 0 + s) by lra.
    rewrite (N 2%Z 1%Z (IZR 0 + (1 - s))), (N 2%Z 2%Z (IZR 1 + (1 - s))) by lra.
    pose proof (within_ok _ _ _ s total2_ok Hs) as W. unfold total2, sym in W.
    rewrite peval_add, peval_flip, !peval_add in W.
    pose proof (AB _ _ _ (kgap_ok 2 0 q20 2 s kcheck20 eq_refl ltac:(lia) ltac:(lia) Hs)).
    pose proof (AB _ _ _ (kgap_ok 2 0 q20 2 (1 - s) kcheck20 eq_refl ltac:(lia) ltac:(lia) Hs')).
    pose proof (AB _ _ _ (kgap_ok 2 1 q21 2 s kcheck21 eq_refl ltac:(lia) ltac:(lia) Hs)).
    pose proof (AB _ _ _ (kgap_ok 2 1 q21 2 (1 - s) kcheck21 eq_refl ltac:(lia) ltac:(lia) Hs')).
    lra.
  - change (zrange (1 - 3) (3 + 1)) with [-2; -1; 0; 1; 2; 3]%Z. cbn [map rsum].
    replace (s - -2) with (IZR 2 + s) by lra.
    replace (s - -1) with (IZR 1 + s) by lra. replace (s - 0) with (IZR 0 + s) by lra.
    rewrite (N 3%Z 1%Z (IZR 0 + (1 - s))), (N 3%Z 2%Z (IZR 1 + (1 - s))), (N 3%Z 3%Z (IZR 2 + (1 - s))) by lra.
    pose proof (within_ok _ _ _ s total3_ok Hs) as W. unfold total3, sym in W.
    rewrite peval_add, peval_flip, !peval_add in W.
    pose proof (AB _ _ _ (kgap_ok 3 0 q30 2 s kcheck30 eq_refl ltac:(lia) ltac:(lia) Hs)).
    pose proof (AB _ _ _ (kgap_ok 3 0 q30 2 (1 - s) kcheck30 eq_refl ltac:(lia) ltac:(lia) Hs')).
    pose proof (AB _ _ _ (kgap_ok 3 1 q31 2 s kcheck31 eq_refl ltac:(lia) ltac:(lia) Hs)).
    pose proof (AB _ _ _ (kgap_ok 3 1 q31 2 (1 - s) kcheck31 eq_refl ltac:(lia) ltac:(lia) Hs')).
    pose proof (AB _ _ _ (kgap_ok 3 2 q32 2 s kcheck32 eq_refl ltac:(lia) ltac:(lia) Hs)).
    pose proof (AB _ _ _ (kgap_ok 3 2 q32 2 (1 - s) kcheck32 eq_refl ltac:(lia) ltac:(lia) Hs')).
    lra.
Qed.

(** ** Constant images *)

Lemma axis_pix_all : forall n a (t : R), (forall i, in_window a t i -> (0 <= i < n)%Z) ->
  axis_pix n (Zfloor t) a = zrange (Zfloor t - a + 1) (Zfloor t + a + 1).
Proof.
  intros n a t H. unfold axis_pix.
  assert (K : forall i, In i (zrange (Zfloor t - a + 1) (Zfloor t + a + 1)) ->
    negb ((i <? 0) || (i >? n - 1))%Z = true).
  { intros i Hi. apply In_zrange in Hi. specialize (H i).
    rewrite window_floor in H. specialize (H ltac:(lia)).
    destruct (Z.ltb_spec i 0), (Z.gtb_spec i (n - 1)); cbn; try reflexivity; lia. }
  revert K. generalize (zrange (Zfloor t - a + 1) (Zfloor t + a + 1)).
  induction l as [|i l IH]; intros K; [reflexivity|]. cbn [filter].
  rewrite (K i) by (left; reflexivity). f_equal. apply IH. intros j Hj. apply K. right. assumption.
Qed.

Lemma rsum_scale : forall (k : R) (l : list R), rsum (map (Rmult k) l) = k * rsum l.
Proof. intros k l. induction l as [|x l IH]; cbn; [ring|]. rewrite IH. ring. Qed.

Lemma rsum_flat : forall (B C : Type) (f : B -> list C) (g : C -> R) (l : list B),
  rsum (map g (flat_map f l)) = rsum (map (fun b => rsum (map g (f b))) l).
Proof.
  intros B C f g l. induction l as [|b l IH]; [reflexivity|].
  cbn [flat_map map rsum]. rewrite map_app, rsum_app, IH. reflexivity.
Qed.

Lemma fst_pair : forall (A B : Type) (x : A) (y : B), fst (x, y) = x.
Proof. reflexivity. Qed.

Lemma flat_value : forall (im : img R) (a : Z) (y x v : R) (e : bool) (lev : R), (1 <= a)%Z ->
  (forall r c, in_window a y r -> in_window a x c -> inb im r c /\ px im r c = lev) ->
  lanczos_point im a y x = Ok (v, e) -> v = lev * (axis_gain a y * axis_gain a x).
Proof.
  intros im a y x v e lev Ha Hin H. rewrite point_sum in H. cbn [ffloor ROps] in H.
  assert (Wy : in_window a y (Zfloor y)) by (apply window_floor; lia).
  assert (Wx : in_window a x (Zfloor x)) by (apply window_floor; lia).
  apply (f_equal (fun o : result (R * bool) => match o with Ok p => fst p | Raise _ => 0 end)) in H.
  cbv beta iota in H. rewrite fst_pair, fst_pair in H. subst v.
  change (@fzero R ROps) with 0. cbn [fadd ROps]. rewrite fold_rsum, Rplus_0_l.
  unfold window_pix.
  rewrite !axis_pix_all.
  2:{ intros i Hi. destruct (Hin i (Zfloor x) Hi Wx) as [B _]. unfold inb in B. lia. }
  2:{ intros i Hi. destruct (Hin (Zfloor y) i Wy Hi) as [B _]. unfold inb in B. lia. }
  rewrite rsum_flat.
  transitivity (rsum (map (fun r => (lev * axis_gain a x) * lanczos_kernel a (y - IZR r))
    (zrange (Zfloor y - a + 1) (Zfloor y + a + 1)))).
  - f_equal. apply map_ext_in. intros r Hr. apply In_zrange in Hr.
    assert (Wr : in_window a y r) by (apply window_floor; lia).
    replace (lev * axis_gain a x * lanczos_kernel a (y - IZR r))
      with ((lev * lanczos_kernel a (y - IZR r)) * axis_gain a x) by ring.
    unfold axis_gain. rewrite <- rsum_scale, !map_map.
    f_equal. apply map_ext_in. intros c Hc. apply In_zrange in Hc. cbn [fst snd].
    destruct (Hin r c Wr ltac:(apply window_floor; lia)) as [_ Ep]. cbn [fst snd fmul ROps]. rewrite Ep.
    change (kern2 a y x (r, c)) with (lanczos_kernel a (x - IZR c) * lanczos_kernel a (y - IZR r)). ring.
  - rewrite <- (map_map (fun r => lanczos_kernel a (y - IZR r)) (Rmult (lev * axis_gain a x))).
    rewrite rsum_scale. unfold axis_gain. ring.
Qed.

Lemma prod_bounds : forall lo hi u v, 0 <= lo -> lo <= u <= hi -> lo <= v <= hi -> lo * lo <= u * v <= hi * hi.
Proof. intros lo hi u v H [A B] [C D]. split; apply Rmult_le_compat; lra. Qed.

Lemma rel_error : forall lev g d, - d <= g - 1 <= d -> Rabs (lev * g - lev) <= d * Rabs lev.
Proof.
  intros lev g d H. replace (lev * g - lev) with ((g - 1) * lev) by ring. rewrite Rabs_mult.
  apply Rmult_le_compat_r; [apply Rabs_pos|]. apply Rabs_le. assumption.
Qed.

Lemma flat_error : forall (im : img R) (a : Z) (y x v lev : R) (e : bool), (1 <= a <= 3)%Z ->
  (forall r c, in_window a y r -> in_window a x c -> inb im r c /\ px im r c = lev) ->
  lanczos_point im a y x = Ok (v, e) ->
  (a = 3%Z -> Rabs (v - lev) <= 115 / 10 ^ 4 * Rabs lev) /\
  (a = 2%Z -> Rabs (v - lev) <= 384 / 10 ^ 4 * Rabs lev) /\
  (a = 1%Z -> Rabs (v - lev) <= 3431 / 10 ^ 4 * Rabs lev).
Proof.
  intros im a y x v lev e Ha Hin H. apply flat_value with (lev := lev) in H; [|lia|assumption]. subst v.
  destruct (gain_bounds a y Ha) as (Y1 & Y2 & Y3). destruct (gain_bounds a x Ha) as (X1 & X2 & X3).
  split; [|split]; intros E; apply rel_error.
  - pose proof (prod_bounds (994289 / 10 ^ 6) _ _ _ ltac:(lra) (Y3 E) (X3 E)). lra.
  - pose proof (prod_bounds (999990 / 10 ^ 6) _ _ _ ltac:(lra) (Y2 E) (X2 E)). lra.
  - pose proof (prod_bounds (810499 / 10 ^ 6) _ _ _ ltac:(lra) (Y1 E) (X1 E)). lra.
Qed.

Lemma flat_range : forall (im : img R) (y x v lev : R) (e : bool), 0 <= lev ->
  (forall r c, in_window 3 y r -> in_window 3 x c -> inb im r c /\ px im r c = lev) ->
  lanczos_point im 3 y x = Ok (v, e) ->
  9886 / 10 ^ 4 * lev <= v <= 100003 / 10 ^ 5 * lev.
Proof.
  intros im y x v lev e Hl Hin H. apply flat_value with (lev := lev) in H; [|lia|assumption]. subst v.
  destruct (gain_bounds 3 y ltac:(lia)) as (_ & _ & Y). destruct (gain_bounds 3 x ltac:(lia)) as (_ & _ & X).
  pose proof (prod_bounds (994289 / 10 ^ 6) _ _ _ ltac:(lra) (Y eq_refl) (X eq_refl)) as P.
  split; rewrite (Rmult_comm _ lev); apply Rmult_le_compat_l; lra.
Qed.

Lemma gain_half : forall i, axis_gain 3 (IZR i + 1 / 2) <= 9943 / 10 ^ 4.
Proof.
  intros i. rewrite gain_frac by lia.
  assert (EF : Zfloor (IZR i + 1 / 2) = i) by (apply Zfloor_imp; rewrite plus_IZR; lra).
  rewrite EF. replace (IZR i + 1 / 2 - IZR i) with (1 / 2) by ring.
  change (zrange (1 - 3) (3 + 1)) with [-2; -1; 0; 1; 2; 3]%Z. cbn [map rsum].
  assert (AB : forall u v w, Rabs (u - v) <= w -> u <= v + w).
  { intros u v w H. pose proof (Rle_abs (u - v)). lra. }
  assert (N : forall (k : Z) (x : R), x = - (1 / 2 - IZR k) -> lanczos_kernel 3 (1 / 2 - IZR k) = lanczos_kernel 3 x).
  { intros k x ->. symmetry. apply kern_even. }
  replace (1 / 2 - -2) with (IZR 2 + 1 / 2) by lra. replace (1 / 2 - -1) with (IZR 1 + 1 / 2) by lra.
  replace (1 / 2 - 0) with (IZR 0 + 1 / 2) by lra.
  rewrite (N 1%Z (IZR 0 + 1 / 2)), (N 2%Z (IZR 1 + 1 / 2)), (N 3%Z (IZR 2 + 1 / 2)) by lra.
  pose proof (AB _ _ _ (kgap_ok 3 0 q30 2 (1 / 2) kcheck30 eq_refl ltac:(lia) ltac:(lia) ltac:(lra))) as K0.
  pose proof (AB _ _ _ (kgap_ok 3 1 q31 2 (1 / 2) kcheck31 eq_refl ltac:(lia) ltac:(lia) ltac:(lra))) as K1.
  pose proof (AB _ _ _ (kgap_ok 3 2 q32 2 (1 / 2) kcheck32 eq_refl ltac:(lia) ltac:(lia) ltac:(lra))) as K2.
  unfold q30, q31, q32 in *. cbn [peval] in *. lra.
Qed.

Lemma flat_half : forall (im : img R) (i j : Z) (v lev : R) (e : bool), 0 < lev ->
  (forall r c, in_window 3 (IZR i + 1 / 2) r -> in_window 3 (IZR j + 1 / 2) c ->
     inb im r c /\ px im r c = lev) ->
  lanczos_point im 3 (IZR i + 1 / 2) (IZR j + 1 / 2) = Ok (v, e) ->
  v < 989 / 1000 * lev.
Proof.
  intros im i j v lev e Hl Hin H. apply flat_value with (lev := lev) in H; [|lia|assumption]. subst v.
  pose proof (gain_half i) as Gi. pose proof (gain_half j) as Gj.
  destruct (gain_bounds 3 (IZR i + 1 / 2) ltac:(lia)) as (_ & _ & Y). specialize (Y eq_refl).
  destruct (gain_bounds 3 (IZR j + 1 / 2) ltac:(lia)) as (_ & _ & X). specialize (X eq_refl).
  assert (P : axis_gain 3 (IZR i + 1 / 2) * axis_gain 3 (IZR j + 1 / 2) <= 9943 / 10 ^ 4 * (9943 / 10 ^ 4))
    by (apply Rmult_le_compat; lra).
  rewrite (Rmult_comm _ lev). apply Rmult_lt_compat_l; lra.
Qed.
