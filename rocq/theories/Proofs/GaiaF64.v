(** The star masks in double precision. *)
From Coq Require Import ZArith List Bool Lia Reals Lra SpecFloat.
From Flocq Require Import Core BinarySingleNaN.
From Coq Require Import List.
From Verif Require Import Lib.Base Lib.Floats Model.Gaia Spec.FloatSpec Spec.GaiaSpec
  Proofs.BaseFacts Proofs.F64Facts Proofs.RoundSum Proofs.LanczosF64 Proofs.FwhmF64 Proofs.AffineF64
  Proofs.GaiaProofs.
Import ListNotations.
Open Scope R_scope.

(** ** The polynomial: Horner's rule *)
Lemma uro_small : uro <= / 9007199254740992.
Proof. exact uro_fine. Qed.

(** One step: the error grows by at most three roundings of the size of the terms. *)
Lemma horner_step (y c x : f64) vy vy' vc vx B k :
  f64_is y vy' -> Rabs (vy' - vy) <= 3 * k * (uro * B) -> Rabs vy <= B -> 0 <= k -> 3 * k * uro <= / 4 ->
  f64_is x vx -> f64_is c vc -> B * Rabs vx + (Rabs vc + 1) <= bpow radix2 900 ->
  exists z, f64_is (fadd (fmul y x) c) z /\
    Rabs (z - (vy * vx + vc)) <= 3 * (k + 1) * (uro * (B * Rabs vx + (Rabs vc + 1))) /\
    Rabs (vy * vx + vc) <= B * Rabs vx + (Rabs vc + 1).
Proof.
  intros Hy E Bv Hk K Hx Hc Big.
  pose proof uro_pos as U. pose proof uro_small as U'. set (u := uro) in *.
  assert (B0 : 0 <= B) by (eapply Rle_trans; [apply Rabs_pos|exact Bv]).
  pose proof (Rabs_pos vx) as X0. pose proof (Rabs_pos vc) as C0.
  set (T := B * Rabs vx) in *. assert (T0 : 0 <= T) by (apply Rmult_le_pos; assumption).
  assert (bpow radix2 900 * 4 <= bpow radix2 1000).
  { change 4 with (bpow radix2 2). rewrite <- bpow_plus. apply bpow_le. lia. }
  assert (S : Rabs vy' <= 5/4 * B).
  { pose proof (near_size _ _ _ _ E Bv). assert (3 * k * (u * B) <= / 4 * B) by (replace (3 * k * (u * B)) with (3 * k * u * B) by ring; apply Rmult_le_compat_r; assumption). lra. }
  assert (P : Rabs (vy' * vx) <= 5/4 * T).
  { rewrite Rabs_mult. unfold T. rewrite <- Rmult_assoc. apply Rmult_le_compat_r; assumption. }
  assert (R1 : Rabs (rnd (vy' * vx) - vy' * vx) <= u * (5/4 * T + u)) by (apply rnd_step; exact P).
  assert (M1 : f64_is (fmul y x) (rnd (vy' * vx))) by (apply mul_is; try assumption; lra).
  set (w := rnd (vy' * vx)) in *.
  assert (uT : 0 <= u * T) by (apply Rmult_le_pos; lra).
  assert (uuT : u * (u * T) <= / 9007199254740992 * (u * T)) by (apply Rmult_le_compat_r; assumption).
  assert (uu : u * u <= / 9007199254740992 * u) by (apply Rmult_le_compat_r; lra).
  assert (uuu : u * (u * u) <= / 9007199254740992 * (u * u)) by (apply Rmult_le_compat_r; [nra|assumption]).
  assert (W : Rabs (w + vc) <= 5/4 * T + u * (5/4 * T + u) + Rabs vc).
  { replace (w + vc) with ((w - vy' * vx) + vy' * vx + vc) by ring.
    eapply Rle_trans; [apply Rabs_triang|]. apply Rplus_le_compat_r.
    eapply Rle_trans; [apply Rabs_triang|]. lra. }
  assert (R2 : Rabs (rnd (w + vc) - (w + vc)) <= u * (5/4 * T + u * (5/4 * T + u) + Rabs vc + u)) by (apply rnd_step; exact W).
  assert (uT1 : u * T <= / 9007199254740992 * T) by (apply Rmult_le_compat_r; assumption).
  exists (rnd (w + vc)). split; [|split].
  - apply add_is; try assumption. lra.
  - replace (rnd (w + vc) - (vy * vx + vc)) with
      ((vy' - vy) * vx + (w - vy' * vx) + (rnd (w + vc) - (w + vc))) by ring.
    eapply Rle_trans; [apply Rabs_triang|]. 
    eapply Rle_trans; [apply Rplus_le_compat; [apply Rabs_triang|exact R2]|].
    rewrite Rabs_mult.
    assert (E1 : Rabs (vy' - vy) * Rabs vx <= 3 * k * (u * T)).
    { unfold T. replace (3 * k * (u * (B * Rabs vx))) with (3 * k * (u * B) * Rabs vx) by ring.
      apply Rmult_le_compat_r; assumption. }
    assert (Kc : 0 <= k * (u * (Rabs vc + 1))) by (apply Rmult_le_pos; [lra|apply Rmult_le_pos; lra]).
    assert (uc : 0 <= u * Rabs vc) by (apply Rmult_le_pos; lra).
    nra.
  - eapply Rle_trans; [apply Rabs_triang|]. rewrite Rabs_mult.
    assert (Rabs vy * Rabs vx <= T) by (apply Rmult_le_compat_r; assumption). lra.
Qed.

Lemma horner_fold (x : f64) vx X : f64_is x vx -> Rabs vx <= X -> 1 <= X ->
  forall coeffs vcs, Forall2 f64_is coeffs vcs -> forall (y : f64) vy vy' B k,
  f64_is y vy' -> Rabs (vy' - vy) <= 3 * k * (uro * B) -> Rabs vy <= B -> 0 <= k ->
  3 * (k + INR (length vcs)) * uro <= / 4 ->
  B * X ^ length vcs + poly_value (map (fun c => Rabs c + 1) vcs) X <= bpow radix2 900 ->
  exists z, f64_is (fold_left (fun y c => fadd (fmul y x) c) coeffs y) z /\
    Rabs (z - (vy * vx ^ length vcs + poly_value vcs vx)) <=
    3 * (k + INR (length vcs)) *
      (uro * (B * X ^ length vcs + poly_value (map (fun c => Rabs c + 1) vcs) X)).
Proof.
  intros Hx BX X1 coeffs vcs HF. induction HF as [|c vc l vl Hc HF IH]; intros y vy vy' B k Hy E Bv Hk K Big.
  - cbn [fold_left length poly_value map INR pow]. exists vy'. split; [exact Hy|].
    replace (vy * 1 + 0) with vy by ring. replace (B * 1 + 0) with B by ring. rewrite Rplus_0_r. exact E.
  - cbn [fold_left length poly_value map pow] in *. rewrite map_length in *.
    assert (B0 : 0 <= B) by (eapply Rle_trans; [apply Rabs_pos|exact Bv]).
    pose proof (Rabs_pos vx) as V0. pose proof (Rabs_pos vc) as C0. pose proof uro_pos as U.
    assert (Pw : 1 <= X ^ length vl) by (apply pow_R1_Rle; exact X1).
    assert (Pn : 0 <= poly_value (map (fun c => Rabs c + 1) vl) X).
    { clear - X1. induction vl as [|a m IH]; cbn [map poly_value]; [lra|].
      assert (0 <= X ^ length (map (fun c => Rabs c + 1) m)) by (apply pow_le; lra).
      pose proof (Rabs_pos a). assert (0 <= (Rabs a + 1) * X ^ length (map (fun c => Rabs c + 1) m)) by (apply Rmult_le_pos; lra). lra. }
    assert (D0 : 0 <= B * X + (Rabs vc + 1)) by (assert (0 <= B * X) by (apply Rmult_le_pos; lra); lra).
    assert (D : B * X + (Rabs vc + 1) <= bpow radix2 900).
    { assert (B * X + (Rabs vc + 1) <= (B * X + (Rabs vc + 1)) * X ^ length vl).
      { rewrite <- (Rmult_1_r (B * X + (Rabs vc + 1))) at 1. apply Rmult_le_compat_l; assumption. }
      replace (B * (X * X ^ length vl)) with (B * X * X ^ length vl) in Big by ring. lra. }
    assert (DX : B * Rabs vx <= B * X) by (apply Rmult_le_compat_l; assumption).
    rewrite S_INR in *. pose proof (pos_INR (length vl)) as L0.
    destruct (horner_step y c x vy vy' vc vx B k) as (z & Hz & Ez & Sz); try assumption.
    { assert (3 * k * uro <= 3 * (k + (INR (length vl) + 1)) * uro) by (apply Rmult_le_compat_r; lra). lra. }
    { lra. }
    destruct (IH (fadd (fmul y x) c) (vy * vx + vc) z (B * X + (Rabs vc + 1)) (k + 1)) as (r & Hr & Er); try assumption.
    { eapply Rle_trans; [exact Ez|]. apply Rmult_le_compat_l; [lra|]. apply Rmult_le_compat_l; lra. }
    { lra. }
    { lra. }
    { replace (k + 1 + INR (length vl)) with (k + (INR (length vl) + 1)) by ring. exact K. }
    { replace ((B * X + (Rabs vc + 1)) * X ^ length vl) with
        (B * (X * X ^ length vl) + (Rabs vc + 1) * X ^ length vl) by ring. lra. }
    exists r. split; [exact Hr|].
    replace (vy * (vx * vx ^ length vl) + (vc * vx ^ length vl + poly_value vl vx)) with
      ((vy * vx + vc) * vx ^ length vl + poly_value vl vx) by ring.
    eapply Rle_trans; [exact Er|]. apply Req_le. ring.
Qed.

Theorem polyval_double coeffs vcs (x : f64) vx : Forall2 f64_is coeffs vcs -> f64_is x vx ->
  (Z.of_nat (length vcs) <= 2 ^ 40)%Z -> poly_size vcs vx <= bpow radix2 900 ->
  exists z, f64_is (polyval coeffs x) z /\
    Rabs (z - poly_value vcs vx) <= 3 * INR (length vcs) * (bpow radix2 (-53) * poly_size vcs vx).
Proof.
  intros HF Hx L Big. unfold poly_size in *.
  assert (Z0 : f64_is (fzero : f64) 0) by (apply (f64_ofZ_is 0); cbn; lia).
  assert (L' : INR (length vcs) <= 1099511627776) by (rewrite INR_IZR_INZ; apply IZR_le; exact L).
  destruct (horner_fold x vx (Rmax 1 (Rabs vx)) Hx (Rmax_r _ _) (Rmax_l _ _) coeffs vcs HF fzero 0 0 0 0) as (z & A & B);
    try assumption.
  - rewrite Rminus_diag_eq, Rabs_R0 by reflexivity. lra.
  - rewrite Rabs_R0. lra.
  - lra.
  - rewrite Rplus_0_l. pose proof (pos_INR (length vcs)). pose proof uro_small. pose proof uro_pos.
    assert (3 * INR (length vcs) * uro <= 3 * 1099511627776 * / 9007199254740992) by (apply Rmult_le_compat; lra). lra.
  - rewrite Rmult_0_l, Rplus_0_l. exact Big.
  - exists z. split; [exact A|]. rewrite !Rmult_0_l, !Rplus_0_l in B. exact B.
Qed.

(** ** Positions *)
Lemma place_double (x s : f64) vx vs off : f64_is x vx -> f64_is s vs -> Rabs vx <= IZR (2 ^ 20) ->
  Rabs vs <= IZR (2 ^ 20) -> (Z.abs off <= 2 ^ 20)%Z ->
  exists z, f64_is (fsub (fsub x (fofZ off)) s) z /\
    Rabs (z - (vx - IZR off - vs)) <= bpow radix2 (-30) /\ Rabs z <= IZR (2 ^ 22).
Proof.
  intros Hx Hs Bx Bs Bo.
  assert (Ho : f64_is (fofZ off : f64) (IZR off)) by (apply f64_ofZ_is; lia).
  assert (Bo' : Rabs (IZR off) <= IZR (2 ^ 20)) by (rewrite <- abs_IZR; apply IZR_le; exact Bo).
  change (IZR (2 ^ 20)) with 1048576 in *. change (IZR (2 ^ 22)) with 4194304.
  change (bpow radix2 (-30)) with (/ 1073741824).
  pose proof uro_pos as U. pose proof uro_small as U'. pose proof big_80 as G.
  destruct (sub_step x (fofZ off) vx vx 1048576 0 (IZR off) (IZR off) 1048576 0) as (a & A1 & A2);
    try assumption; try apply exact_step; try lra.
  assert (A3 : Rabs (vx - IZR off) <= 2097152).
  { unfold Rminus. eapply Rle_trans; [apply Rabs_triang|]. rewrite Rabs_Ropp. lra. }
  assert (A4 : Rabs (a - (vx - IZR off)) <= / 4294967296 + / 1000000000000).
  { eapply Rle_trans; [exact A2|].
    assert (uro * (1048576 + 0 + (1048576 + 0) + uro) <= / 9007199254740992 * (1048576 + 0 + (1048576 + 0) + / 9007199254740992))
      by (apply Rmult_le_compat; lra). lra. }
  destruct (sub_step (fsub x (fofZ off)) s (vx - IZR off) a 2097152 (/ 4294967296 + / 1000000000000) vs vs 1048576 0) as (z & Z1 & Z2);
    try assumption; try apply exact_step; try lra.
  assert (Z3 : Rabs (z - (vx - IZR off - vs)) <= / 1073741824).
  { eapply Rle_trans; [exact Z2|].
    set (K := 2097152 + (/ 4294967296 + / 1000000000000) + (1048576 + 0)) in *.
    assert (K <= 3145729) by (unfold K; lra). assert (0 <= K) by (unfold K; lra).
    assert (uro * (K + uro) <= / 9007199254740992 * (3145729 + / 9007199254740992)) by (apply Rmult_le_compat; lra). lra. }
  exists z. split; [exact Z1|]. split; [exact Z3|].
  assert (Rabs (vx - IZR off - vs) <= 3145728).
  { unfold Rminus at 1. eapply Rle_trans; [apply Rabs_triang|]. rewrite Rabs_Ropp. lra. }
  pose proof (near_size _ _ _ _ Z3 H). lra.
Qed.

Lemma dist_le_abs a b : dist_euc 0 0 a b <= Rabs a + Rabs b.
Proof.
  unfold dist_euc. rewrite !Rminus_0_l. rewrite <- !Rsqr_neg.
  pose proof (Rabs_pos a). pose proof (Rabs_pos b).
  rewrite <- (sqrt_Rsqr (Rabs a + Rabs b)) by lra. apply sqrt_le_1_alt.
  rewrite (Rsqr_abs a), (Rsqr_abs b). unfold Rsqr. nra.
Qed.

(** Moving a point by a little in each direction changes the distance by little. *)
Lemma dist_moved x y x' y' c r e : Rabs (x' - x) <= e -> Rabs (y' - y) <= e ->
  Rabs (dist_euc x' y' c r - dist_euc x y c r) <= 2 * e.
Proof.
  intros Hx Hy.
  assert (K : forall a b a' b', Rabs (a' - a) <= e -> Rabs (b' - b) <= e -> dist_euc a b a' b' <= 2 * e).
  { intros a b a' b' A B. replace (dist_euc a b a' b') with (dist_euc 0 0 (a' - a) (b' - b)).
    - eapply Rle_trans; [apply dist_le_abs|]. lra.
    - unfold dist_euc. f_equal. unfold Rsqr. ring. }
  pose proof (K x y x' y' Hx Hy) as K1.
  pose proof (triangle x' y' c r x y) as T1. pose proof (triangle x y c r x' y') as T2.
  rewrite (distance_symm x' y' x y) in T1. apply Rabs_le. lra.
Qed.

(** ** The mask *)
Section Mask.
Variables (t : R) (draw : list (f64 * f64 * f64) -> Z -> bool -> result (img Z)).
Variables (s2i : f64 -> f64 -> result (f64 * f64)) (pow10 to_f4 : f64 -> f64).
Variables (off : Z) (cat : list (star (F := f64))) (mx : f64) (coeffs : list f64).
Variables (sr sc : f64) (vsr vsc : R) (n : Z) (stars : list (placed_star (F := f64))).
Let radius_of (mag : f64) : f64 := to_f4 (pow10 (polyval coeffs mag)).
Hypothesis Hd : draws_discs t draw.
Hypothesis Hr : read_gaia_stars s2i off cat = Ok stars.
Hypothesis Hstars : forall s, In s cat -> fleb (st_mag s) mx = true -> ordinary_star s2i radius_of s.
Hypothesis Ho : (Z.abs off <= 2 ^ 20)%Z.
Hypothesis Hsr : f64_is sr vsr.
Hypothesis Hsc : f64_is sc vsc.
Hypothesis Bsr : Rabs vsr <= IZR (2 ^ 20).
Hypothesis Bsc : Rabs vsc <= IZR (2 ^ 20).

Let discs := map (fun p => (fsub (pl_x (fst p)) sc, fsub (pl_y (fst p)) sr, snd p))
                 (add_gaia_radius pow10 to_f4 stars mx coeffs).

(** What a star of the list to be drawn has to do with the catalogue. *)
Lemma disc_of x y q : In (x, y, q) discs ->
  exists s a b, In s cat /\ fleb (st_mag s) mx = true /\ s2i (st_ra s) (st_dec s) = Ok (a, b) /\
    x = fsub (fsub a (fofZ off)) sc /\ y = fsub (fsub b (fofZ off)) sr /\ q = radius_of (st_mag s).
Proof.
  intros I. unfold discs, add_gaia_radius in I. apply in_map_iff in I. destruct I as ([p q'] & Q & I).
  cbn [fst snd] in Q. injection Q as <- <- <-.
  apply in_map_iff in I. destruct I as (p0 & Q & I). injection Q as -> <-.
  apply filter_In in I. destruct I as [I M].
  pose proof (read_ok _ _ _ _ Hr) as F2.
  assert (L2 : In (pl_star p) cat /\ exists x y, s2i (st_ra (pl_star p)) (st_dec (pl_star p)) = Ok (x, y) /\
     pl_x p = fsub x (fofZ off) /\ pl_y p = fsub y (fofZ off)).
  { clear - F2 I. induction F2 as [|s p' l m (A & B) HF IH]; [destruct I|].
    destruct I as [<-|I]; [rewrite A; split; [left; reflexivity|exact B]|].
    destruct (IH I) as (C & D). split; [right; exact C|exact D]. }
  destruct L2 as (I2 & a & b & E & X & Y). exists (pl_star p), a, b. rewrite X, Y.
  repeat (split; [first [assumption|reflexivity]|]). reflexivity.
Qed.

Lemma disc_for s a b : In s cat -> fleb (st_mag s) mx = true -> s2i (st_ra s) (st_dec s) = Ok (a, b) ->
  In (fsub (fsub a (fofZ off)) sc, fsub (fsub b (fofZ off)) sr, radius_of (st_mag s)) discs.
Proof.
  intros I M E. pose proof (read_ok _ _ _ _ Hr) as F2.
  assert (L : exists p, In p stars /\ pl_star p = s /\ pl_x p = fsub a (fofZ off) /\ pl_y p = fsub b (fofZ off)).
  { clear - F2 I E. induction F2 as [|s' p l m (A & x & y & B & C & D) HF IH]; [destruct I|].
    destruct I as [->|I].
    - rewrite E in B. injection B as <- <-. exists p. split; [left; reflexivity|]. auto.
    - destruct (IH I) as (p' & G & H). exists p'. split; [right; exact G|exact H]. }
  destruct L as (p & Ip & Ep & X & Y). unfold discs, add_gaia_radius. apply in_map_iff.
  exists (p, radius_of (st_mag s)). cbn [fst snd]. split; [rewrite X, Y; reflexivity|].
  apply in_map_iff. exists p. rewrite Ep. split; [reflexivity|]. apply filter_In. split; [exact Ip|].
  rewrite Ep. exact M.
Qed.

Lemma f64_is_unique (x : f64) v w : f64_is x v -> f64_is x w -> v = w.
Proof. intros (_ & _ & <-) (_ & _ & <-). reflexivity. Qed.

Lemma moved (a b : f64) va vb z w r c :
  Rabs (z - (va - IZR off - vsc)) <= bpow radix2 (-30) -> Rabs (w - (vb - IZR off - vsr)) <= bpow radix2 (-30) ->
  Rabs (dist_euc z w (IZR c) (IZR r) -
        dist_euc (va - IZR off) (vb - IZR off) (vsc + IZR c) (vsr + IZR r)) <= bpow radix2 (-29).
Proof.
  intros A B. pose proof (dist_moved _ _ _ _ (IZR c) (IZR r) _ A B) as K.
  replace (dist_euc (va - IZR off) (vb - IZR off) (vsc + IZR c) (vsr + IZR r)) with
    (dist_euc (va - IZR off - vsc) (vb - IZR off - vsr) (IZR c) (IZR r)).
  - replace (bpow radix2 (-29)) with (2 * bpow radix2 (-30)); [exact K|].
    change 2 with (bpow radix2 1). rewrite <- bpow_plus. reflexivity.
  - unfold dist_euc. f_equal. unfold Rsqr. ring.
Qed.

Theorem mask_double :
  exists m, build_gaia_star_mask pow10 to_f4 draw stars mx coeffs sc sr n false = Ok m /\
    nrows m = n /\ ncols m = n /\
    forall r c, inb m r c ->
      (px m r c = true -> exists s q d, In s cat /\
         star_at s2i radius_of mx off (vsr + IZR r) (vsc + IZR c) s q d /\ d < q + (t + bpow radix2 (-29))) /\
      (forall s q d, In s cat -> star_at s2i radius_of mx off (vsr + IZR r) (vsc + IZR c) s q d ->
         d < q - (t + bpow radix2 (-29)) -> px m r c = true).
Proof.
  assert (O : Forall ordinary_disc discs).
  { apply Forall_forall. intros [[x y] q] I. destruct (disc_of _ _ _ I) as (s & a & b & Is & M & E & -> & -> & ->).
    destruct (Hstars s Is M) as ((vq & Q) & P). destruct (P a b E) as (va & vb & A & B & Ba & Bb).
    destruct (place_double a sc va vsc off A Hsc Ba Bsc Ho) as (z & Z1 & _ & Z3).
    destruct (place_double b sr vb vsr off B Hsr Bb Bsr Ho) as (w & W1 & _ & W3).
    exists z, w, vq. auto 10. }
  unfold build_gaia_star_mask. fold discs. destruct (Hd discs n O) as (m & E & N1 & N2 & H).
  rewrite E. cbn [bind]. eexists. split; [reflexivity|]. split; [exact N1|]. split; [exact N2|].
  intros r c Hrc. cbn [imap px]. rewrite negb_true_iff, Z.eqb_neq. destruct (H r c Hrc) as [H1 H2]. split.
  - intros Hp. destruct (H1 Hp) as (x & y & rad & vx & vy & q & I & X & Y & Q & D).
    destruct (disc_of _ _ _ I) as (s & a & b & Is & M & Es & -> & -> & ->).
    destruct (Hstars s Is M) as (_ & P). destruct (P a b Es) as (va & vb & A & B & Ba & Bb).
    destruct (place_double a sc va vsc off A Hsc Ba Bsc Ho) as (z & Z1 & Z2 & _).
    destruct (place_double b sr vb vsr off B Hsr Bb Bsr Ho) as (w & W1 & W2 & _).
    rewrite (f64_is_unique _ _ _ X Z1), (f64_is_unique _ _ _ Y W1) in D.
    pose proof (moved a b va vb z w r c Z2 W2) as K. apply Rabs_le_inv in K.
    exists s, q, (dist_euc (va - IZR off) (vb - IZR off) (vsc + IZR c) (vsr + IZR r)).
    split; [exact Is|]. split; [|lra]. split; [exact M|]. split; [exact Q|]. exists a, b, va, vb. auto.
  - intros s q d Is (M & Q & a & b & va' & vb' & Es & A' & B' & ->) D.
    destruct (Hstars s Is M) as (_ & P). destruct (P a b Es) as (va & vb & A & B & Ba & Bb).
    rewrite (f64_is_unique _ _ _ A' A), (f64_is_unique _ _ _ B' B) in D.
    destruct (place_double a sc va vsc off A Hsc Ba Bsc Ho) as (z & Z1 & Z2 & _).
    destruct (place_double b sr vb vsr off B Hsr Bb Bsr Ho) as (w & W1 & W2 & _).
    pose proof (moved a b va vb z w r c Z2 W2) as K. apply Rabs_le_inv in K.
    rewrite negb_true_iff, Z.eqb_neq. apply H2. exists (fsub (fsub a (fofZ off)) sc), (fsub (fsub b (fofZ off)) sr), (radius_of (st_mag s)), z, w, q.
    split; [apply disc_for; assumption|]. split; [exact Z1|]. split; [exact W1|]. split; [exact Q|]. lra.
Qed.
End Mask.
