(** Proofs about the rough sky bounds. *)
From Coq Require Import ZArith List Bool Reals Lia Lra.
From Flocq Require Import Core.
From Verif Require Import Lib.Base Lib.Floats Model.SkyBounds Spec.AffineSpec
  Proofs.BaseFacts.
Import ListNotations.
Open Scope R_scope.

Lemma fmin_R : forall x y : R, fmin x y = Rmin x y.
Proof.
  intros. unfold fmin. cbn. unfold Rltb, Rmin.
  destruct (Rlt_dec y x), (Rle_dec x y); lra.
Qed.
Lemma fmax_R : forall x y : R, fmax x y = Rmax x y.
Proof.
  intros. unfold fmax. cbn. unfold Rltb, Rmax.
  destruct (Rlt_dec x y), (Rle_dec x y); lra.
Qed.

Lemma fold_min_spec : forall (l : list R) (a : R),
  In (fold_left fmin l a) (a :: l) /\ (forall x, In x (a :: l) -> fold_left fmin l a <= x).
Proof.
  induction l as [|b l IH]; intros a.
  - split; [left; reflexivity|]. intros x [->|[]]. cbn. lra.
  - cbn [fold_left]. destruct (IH (fmin a b)) as [Hin Hle]. rewrite fmin_R in *. split.
    + destruct Hin as [H|H]; [|right; right; exact H].
      rewrite <- H. unfold Rmin. destruct (Rle_dec a b); [left|right; left]; reflexivity.
    + assert (H0 : fold_left fmin l (Rmin a b) <= Rmin a b) by (apply Hle; left; reflexivity).
      intros x [->|[->|H]].
      * eapply Rle_trans; [exact H0|apply Rmin_l].
      * eapply Rle_trans; [exact H0|apply Rmin_r].
      * apply Hle. right. exact H.
Qed.

Lemma fold_max_spec : forall (l : list R) (a : R),
  In (fold_left fmax l a) (a :: l) /\ (forall x, In x (a :: l) -> x <= fold_left fmax l a).
Proof.
  induction l as [|b l IH]; intros a.
  - split; [left; reflexivity|]. intros x [->|[]]. cbn. lra.
  - cbn [fold_left]. destruct (IH (fmax a b)) as [Hin Hle]. rewrite fmax_R in *. split.
    + destruct Hin as [H|H]; [|right; right; exact H].
      rewrite <- H. unfold Rmax. destruct (Rle_dec a b); [right; left|left]; reflexivity.
    + assert (H0 : Rmax a b <= fold_left fmax l (Rmax a b)) by (apply Hle; left; reflexivity).
      intros x [->|[->|H]].
      * eapply Rle_trans; [apply Rmax_l|exact H0].
      * eapply Rle_trans; [apply Rmax_r|exact H0].
      * apply Hle. right. exact H.
Qed.

Lemma lmin_spec : forall l : list R, l <> [] ->
  exists m, lmin l = Ok m /\ In m l /\ forall x, In x l -> m <= x.
Proof.
  intros [|a l] H; [congruence|]. exists (fold_left fmin l a). split; [reflexivity|].
  apply fold_min_spec.
Qed.
Lemma lmax_spec : forall l : list R, l <> [] ->
  exists m, lmax l = Ok m /\ In m l /\ forall x, In x l -> x <= m.
Proof.
  intros [|a l] H; [congruence|]. exists (fold_left fmax l a). split; [reflexivity|].
  apply fold_max_spec.
Qed.

(** ** The grid *)

Lemma ceil_ratio_pos : forall a b : Z, (1 <= b)%Z -> (b <= a)%Z ->
  exists k, @ceil_ratio R _ a b = Some k /\ (1 <= k)%Z.
Proof.
  intros a b Hb Ha. unfold ceil_ratio, fneg, fzero. cbn.
  exists (- Zfloor (0 - IZR a / IZR b))%Z. split; [reflexivity|].
  assert (H : (Zfloor (0 - IZR a / IZR b) <= -1)%Z); [|lia].
  apply Z.lt_succ_r. change (Z.succ (-1)) with 0%Z. apply lt_IZR.
  eapply Rle_lt_trans; [apply Zfloor_lb|].
  assert (0 < IZR a / IZR b); [|lra].
  apply Rdiv_lt_0_compat; apply (IZR_lt 0); lia.
Qed.

Lemma grid_size_pos : forall nrow ncol n : Z, (1 <= nrow)%Z -> (1 <= ncol)%Z -> (1 <= n)%Z ->
  exists nr nc, @grid_size R _ nrow ncol n = Some (nr, nc) /\ (1 <= nr)%Z /\ (1 <= nc)%Z.
Proof.
  intros nrow ncol n H1 H2 H3. unfold grid_size.
  destruct (Z.ltb_spec ncol nrow).
  - destruct (ceil_ratio_pos nrow ncol) as (k & -> & Hk); try lia. eauto.
  - destruct (ceil_ratio_pos ncol nrow) as (k & -> & Hk); try lia. eauto.
Qed.

Lemma grid_axis_in : forall n dim r, (1 <= n)%Z -> (1 <= dim)%Z ->
  In r (@grid_axis R _ n dim) -> 0 <= r <= IZR (dim - 1).
Proof.
  intros n dim r Hn Hd H. unfold grid_axis, fone in H. cbn in H. apply in_map_iff in H.
  destruct H as (k & <- & Hk). apply In_zrange in Hk. rewrite minus_IZR.
  assert (H0 : 1 <= IZR n) by (apply (IZR_le 1); lia).
  assert (H1 : 1 <= IZR dim) by (apply (IZR_le 1); lia).
  assert (H2 : 0 <= IZR k) by (apply (IZR_le 0); lia).
  assert (H3 : IZR k <= IZR n) by (apply IZR_le; lia).
  split.
  - apply Rmult_le_pos; [apply Rmult_le_pos; lra|]. apply Rlt_le, Rinv_0_lt_compat. lra.
  - apply (Rmult_le_reg_r (IZR n)); [lra|].
    replace (IZR k * (IZR dim - 1) / IZR n * IZR n) with (IZR k * (IZR dim - 1)) by (field; lra).
    rewrite (Rmult_comm _ (IZR n)). apply Rmult_le_compat_r; lra.
Qed.

Lemma grid_axis_ends : forall n dim, (1 <= n)%Z ->
  In 0 (@grid_axis R _ n dim) /\ In (IZR (dim - 1)) (@grid_axis R _ n dim).
Proof.
  intros n dim Hn. assert (H0 : 1 <= IZR n) by (apply (IZR_le 1); lia).
  unfold grid_axis, fone. cbn. split; apply in_map_iff.
  - exists 0%Z. split; [field; lra|]. apply In_zrange. lia.
  - exists n. split; [rewrite minus_IZR; field; lra|]. apply In_zrange. lia.
Qed.

Lemma grid_points_in : forall (rows cols : list R) r c,
  In (r, c) (grid_points rows cols) <-> In r rows /\ In c cols.
Proof.
  intros rows cols r c. unfold grid_points. rewrite in_flat_map. split.
  - intros (c' & Hc & H). apply in_map_iff in H. destruct H as (r' & E & Hr).
    inversion E; subst. tauto.
  - intros [Hr Hc]. exists c. split; [assumption|]. apply in_map_iff. eauto.
Qed.

(** ** Affine functions on a rectangle *)

Lemma lin_ends : forall a x l h, l <= x <= h -> Rmin (a * l) (a * h) <= a * x <= Rmax (a * l) (a * h).
Proof.
  intros a x l h [H1 H2]. destruct (Rle_or_lt 0 a) as [Ha|Ha].
  - rewrite Rmin_left, Rmax_right; try (apply Rmult_le_compat_l; lra).
    split; apply Rmult_le_compat_l; lra.
  - rewrite Rmin_right, Rmax_left; try (apply Rmult_le_compat_neg_l; lra).
    split; apply Rmult_le_compat_neg_l; lra.
Qed.

Lemma affine_corners_lo : forall a b xl xh yl yh m x y,
  m <= a * xl + b * yl -> m <= a * xl + b * yh -> m <= a * xh + b * yl -> m <= a * xh + b * yh ->
  xl <= x <= xh -> yl <= y <= yh -> m <= a * x + b * y.
Proof.
  intros a b xl xh yl yh m x y H1 H2 H3 H4 Hx Hy.
  pose proof (lin_ends a x _ _ Hx) as [K1 _]. pose proof (lin_ends b y _ _ Hy) as [K2 _].
  revert K1 K2. unfold Rmin.
  destruct (Rle_dec (a * xl) (a * xh)), (Rle_dec (b * yl) (b * yh)); lra.
Qed.
Lemma affine_corners_hi : forall a b xl xh yl yh m x y,
  a * xl + b * yl <= m -> a * xl + b * yh <= m -> a * xh + b * yl <= m -> a * xh + b * yh <= m ->
  xl <= x <= xh -> yl <= y <= yh -> a * x + b * y <= m.
Proof.
  intros a b xl xh yl yh m x y H1 H2 H3 H4 Hx Hy.
  pose proof (lin_ends a x _ _ Hx) as [_ K1]. pose proof (lin_ends b y _ _ Hy) as [_ K2].
  revert K1 K2. unfold Rmax.
  destruct (Rle_dec (a * xl) (a * xh)), (Rle_dec (b * yl) (b * yh)); lra.
Qed.

(** ** The bounds *)

Definition uv_of (wcs : R -> R -> R * R) (r2uv : R -> R -> R -> R -> R * R) (off : R)
  (celestial : bool) (ra dec : R) (rc : R * R) : R * R :=
  let rd := wcs (snd rc + off) (fst rc + off) in
  if celestial then r2uv (fst rd) (snd rd) ra dec else (fst rd - ra, snd rd - dec).

Lemma bounds_shape : forall wcs r2uv cosdeg nrow ncol off buff n celestial,
  (1 <= nrow)%Z -> (1 <= ncol)%Z -> (1 <= n)%Z ->
  exists nr nc b ra dec ubuff u0 u1 v0 v1,
  (1 <= nr)%Z /\ (1 <= nc)%Z /\
  (ra, dec) = wcs (IZR (ncol - 1) / 2 + off) (IZR (nrow - 1) / 2 + off) /\
  get_rough_sky_bounds wcs r2uv cosdeg nrow ncol off buff n celestial = Ok (b, ra, dec) /\
  b = mk_bounds (u0 - ubuff) (u1 + ubuff) (v0 - buff) (v1 + buff) /\
  (let pts := grid_points (grid_axis nr nrow) (grid_axis nc ncol) in
   let uv := map (uv_of wcs r2uv off celestial ra dec) pts in
   (celestial = false -> ubuff = buff) /\
   (celestial = true -> exists p, In p pts /\
      ubuff = buff / cosdeg (snd (uv_of wcs r2uv off celestial ra dec p) / 3600) /\
      forall q, In q pts ->
        cosdeg (snd (uv_of wcs r2uv off celestial ra dec p) / 3600)
        <= cosdeg (snd (uv_of wcs r2uv off celestial ra dec q) / 3600)) /\
   In u0 (map fst uv) /\ (forall x, In x (map fst uv) -> u0 <= x) /\
   In u1 (map fst uv) /\ (forall x, In x (map fst uv) -> x <= u1) /\
   In v0 (map snd uv) /\ (forall x, In x (map snd uv) -> v0 <= x) /\
   In v1 (map snd uv) /\ (forall x, In x (map snd uv) -> x <= v1)).
Proof.
  intros wcs r2uv cosdeg nrow ncol off buff n cel H1 H2 H3.
  destruct (grid_size_pos nrow ncol n H1 H2 H3) as (nr & nc & Hg & Hnr & Hnc).
  unfold get_rough_sky_bounds. rewrite Hg.
  destruct (wcs (fadd (fdiv (fofZ (ncol - 1)) (fofZ 2)) off)
                (fadd (fdiv (fofZ (nrow - 1)) (fofZ 2)) off)) as [ra dec] eqn:Hc.
  cbv zeta. rewrite (map_map _ _ (grid_points _ _)).
  match goal with |- context [map ?g (grid_points ?a ?b)] =>
    change (map g (grid_points a b)) with (map (uv_of wcs r2uv off cel ra dec) (grid_points a b))
  end.
  set (pts := grid_points (grid_axis nr nrow) (grid_axis nc ncol)).
  set (uv := map (uv_of wcs r2uv off cel ra dec) pts).
  assert (Hne : pts <> []).
  { destruct (grid_axis_ends nr nrow Hnr) as [E1 _]. destruct (grid_axis_ends nc ncol Hnc) as [E2 _].
    intros E. assert (K : In (0, 0) pts) by (apply grid_points_in; tauto). rewrite E in K. destruct K. }
  assert (Hu : map fst uv <> []).
  { unfold uv. rewrite map_map. intros E. apply map_eq_nil in E. contradiction. }
  assert (Hv : map snd uv <> []).
  { unfold uv. rewrite map_map. intros E. apply map_eq_nil in E. contradiction. }
  destruct (lmin_spec _ Hu) as (u0 & Eu0 & ? & ?). destruct (lmax_spec _ Hu) as (u1 & Eu1 & ? & ?).
  destruct (lmin_spec _ Hv) as (v0 & Ev0 & ? & ?). destruct (lmax_spec _ Hv) as (v1 & Ev1 & ? & ?).
  destruct cel.
  - destruct (lmin_spec (map (fun x => cosdeg (fdiv x (fofZ 3600))) (map snd uv)))
      as (uf & Euf & Hin & Hmin).
    { intros E. apply map_eq_nil in E. contradiction. }
    rewrite Euf, Eu0, Eu1, Ev0, Ev1. cbn [bind].
    unfold uv in Hin, Hmin. rewrite !map_map in Hin, Hmin. apply in_map_iff in Hin.
    destruct Hin as (p & Ep & Hp).
    exists nr, nc, (mk_bounds (u0 - buff / uf) (u1 + buff / uf) (v0 - buff) (v1 + buff)), ra, dec,
      (buff / uf), u0, u1, v0, v1.
    split; [exact Hnr|]. split; [exact Hnc|]. split; [symmetry; exact Hc|].
    split; [reflexivity|]. split; [reflexivity|]. fold pts. cbv zeta. fold uv.
    split; [discriminate|]. split; [|tauto].
    intros _. exists p. split; [exact Hp|].
    split; [rewrite <- Ep; reflexivity|].
    intros q Hq. assert (K : uf <= cosdeg (fdiv (snd (uv_of wcs r2uv off true ra dec q)) (fofZ 3600))).
    { apply Hmin. apply in_map_iff. exists q. tauto. }
    rewrite <- Ep in K. exact K.
  - rewrite Eu0, Eu1, Ev0, Ev1. cbn [bind].
    exists nr, nc, (mk_bounds (u0 - buff) (u1 + buff) (v0 - buff) (v1 + buff)), ra, dec,
      buff, u0, u1, v0, v1.
    split; [exact Hnr|]. split; [exact Hnc|]. split; [symmetry; exact Hc|].
    split; [reflexivity|]. split; [reflexivity|]. fold pts. cbv zeta. fold uv.
    split; [reflexivity|]. split; [discriminate|]. tauto.
Qed.

Lemma affine_range : forall (f : R -> R -> R) a b k nr nc nrow ncol lo hi,
  (1 <= nr)%Z -> (1 <= nc)%Z -> (1 <= nrow)%Z -> (1 <= ncol)%Z ->
  (forall x y, f x y = a * x + b * y + k) ->
  let vals := map (fun rc => f (snd rc) (fst rc))
                  (grid_points (grid_axis nr nrow) (grid_axis nc ncol)) in
  In lo vals -> (forall x, In x vals -> lo <= x) ->
  In hi vals -> (forall x, In x vals -> x <= hi) ->
  range_on f 0 (IZR (ncol - 1)) 0 (IZR (nrow - 1)) lo hi.
Proof.
  intros f a b k nr nc nrow ncol lo hi Hnr Hnc Hr Hc Hf vals Hlo Hlo' Hhi Hhi'.
  destruct (grid_axis_ends nr nrow Hnr) as [R0 R1]. destruct (grid_axis_ends nc ncol Hnc) as [C0 C1].
  assert (Hcor : forall r c, In r (grid_axis nr nrow) -> In c (grid_axis nc ncol) ->
    lo <= a * c + b * r + k <= hi).
  { intros r c Hr' Hc'. rewrite <- Hf.
    assert (K : In (f c r) vals).
    { unfold vals. apply in_map_iff. exists (r, c). split; [reflexivity|]. apply grid_points_in. tauto. }
    split; auto. }
  assert (Hat : forall v, In v vals -> exists x y, 0 <= x <= IZR (ncol - 1) /\ 0 <= y <= IZR (nrow - 1) /\ f x y = v).
  { intros v Hv. unfold vals in Hv. apply in_map_iff in Hv. destruct Hv as ([r c] & <- & Hp).
    apply grid_points_in in Hp. destruct Hp as [P1 P2].
    exists c, r. split; [eapply grid_axis_in; [| |exact P2]; lia|].
    split; [eapply grid_axis_in; [| |exact P1]; lia|]. reflexivity. }
  split; [|split; apply Hat; assumption].
  intros x y Hx Hy. rewrite Hf.
  pose proof (Hcor _ _ R0 C0). pose proof (Hcor _ _ R0 C1).
  pose proof (Hcor _ _ R1 C0). pose proof (Hcor _ _ R1 C1).
  split.
  - assert (lo - k <= a * x + b * y); [|lra].
    apply (affine_corners_lo a b 0 (IZR (ncol - 1)) 0 (IZR (nrow - 1))); try assumption; lra.
  - assert (a * x + b * y <= hi - k); [|lra].
    apply (affine_corners_hi a b 0 (IZR (ncol - 1)) 0 (IZR (nrow - 1))); try assumption; lra.
Qed.

(** The bounds of an affine, non-celestial WCS: the exact bounding box of the
    pixel centres, padded. *)
Lemma bounds_affine : forall wcs r2uv cosdeg a b k a' b' k' nrow ncol off buff n,
  (1 <= nrow)%Z -> (1 <= ncol)%Z -> (1 <= n)%Z ->
  (forall x y, wcs x y = (a * x + b * y + k, a' * x + b' * y + k')) ->
  exists bb ra dec,
  get_rough_sky_bounds wcs r2uv cosdeg nrow ncol off buff n false = Ok (bb, ra, dec) /\
  (ra, dec) = wcs (IZR (ncol - 1) / 2 + off) (IZR (nrow - 1) / 2 + off) /\
  range_on (fun x y => fst (wcs (x + off) (y + off)) - ra) 0 (IZR (ncol - 1)) 0 (IZR (nrow - 1))
    (umin bb + buff) (umax bb - buff) /\
  range_on (fun x y => snd (wcs (x + off) (y + off)) - dec) 0 (IZR (ncol - 1)) 0 (IZR (nrow - 1))
    (vmin bb + buff) (vmax bb - buff).
Proof.
  intros wcs r2uv cosdeg a b k a' b' k' nrow ncol off buff n H1 H2 H3 Hw.
  destruct (bounds_shape wcs r2uv cosdeg nrow ncol off buff n false H1 H2 H3)
    as (nr & nc & bb & ra & dec & ub & u0 & u1 & v0 & v1 & Hnr & Hnc & Hctr & Hg & Hb & Hub & _ & HH).
  rewrite (Hub eq_refl) in Hb. subst bb. exists (mk_bounds (u0 - buff) (u1 + buff) (v0 - buff) (v1 + buff)), ra, dec.
  split; [exact Hg|]. split; [exact Hctr|]. cbn [umin umax vmin vmax].
  replace (u0 - buff + buff) with u0 by ring. replace (u1 + buff - buff) with u1 by ring.
  replace (v0 - buff + buff) with v0 by ring. replace (v1 + buff - buff) with v1 by ring.
  destruct HH as (A1 & A2 & A3 & A4 & A5 & A6 & A7 & A8). rewrite map_map in *.
  split.
  - eapply (affine_range _ a b (a * off + b * off + k - ra) nr nc nrow ncol); try assumption.
    intros x y. rewrite Hw. cbn. ring.
  - eapply (affine_range _ a' b' (a' * off + b' * off + k' - dec) nr nc nrow ncol); try assumption.
    intros x y. rewrite Hw. cbn. ring.
Qed.

Lemma contains_R : forall (b : bounds R) u v,
  contains_point b u v = true <-> umin b <= u <= umax b /\ vmin b <= v <= vmax b.
Proof.
  intros. unfold contains_point. cbn. unfold Rleb.
  rewrite !andb_true_iff.
  repeat match goal with |- context [Rle_dec ?a ?b] => destruct (Rle_dec a b) end;
    split; intros; repeat split; try lra; try reflexivity; try (exfalso; intuition lra); intuition discriminate.
Qed.

(** Whatever the WCS: a grid position is inside the bounds. *)
Lemma bounds_grid : forall wcs r2uv cosdeg nrow ncol off buff n celestial b ra dec,
  (1 <= nrow)%Z -> (1 <= ncol)%Z -> (1 <= n)%Z -> 0 <= buff ->
  get_rough_sky_bounds wcs r2uv cosdeg nrow ncol off buff n celestial = Ok (b, ra, dec) ->
  (celestial = true -> forall x y, 0 <= x <= IZR (ncol - 1) -> 0 <= y <= IZR (nrow - 1) ->
     let '(r, d) := wcs (x + off) (y + off) in 0 < cosdeg (snd (r2uv r d ra dec) / 3600)) ->
  forall x y, (x = 0 \/ x = IZR (ncol - 1)) -> (y = 0 \/ y = IZR (nrow - 1)) ->
  let '(r, d) := wcs (x + off) (y + off) in
  ccd_contains_radec r2uv b ra dec celestial r d = true.
Proof.
  intros wcs r2uv cosdeg nrow ncol off buff n cel b ra dec H1 H2 H3 Hbuf Hg Hcos x y Hx Hy.
  destruct (bounds_shape wcs r2uv cosdeg nrow ncol off buff n cel H1 H2 H3)
    as (nr & nc & bb & ra' & dec' & ub & u0 & u1 & v0 & v1 & Hnr & Hnc & Hctr & Hg' & Hb & Hub & Hub' & HH).
  rewrite Hg in Hg'. inversion Hg'; subst b ra dec. clear Hg'.
  destruct HH as (A1 & A2 & A3 & A4 & A5 & A6 & A7 & A8). rewrite map_map in *.
  assert (Hub0 : 0 <= ub).
  { destruct cel.
    - destruct (Hub' eq_refl) as ([r c] & Hp & -> & _). apply Rmult_le_pos; [assumption|].
      apply grid_points_in in Hp. destruct Hp as [P1 P2].
      apply grid_axis_in in P1; [|assumption..]. apply grid_axis_in in P2; [|assumption..].
      specialize (Hcos eq_refl c r P2 P1). unfold uv_of. cbn [fst snd].
      destruct (wcs (c + off) (r + off)) as [rr dd]. cbn [fst snd].
      apply Rlt_le, Rinv_0_lt_compat, Hcos.
    - rewrite (Hub eq_refl). assumption. }
  set (pts := grid_points (grid_axis nr nrow) (grid_axis nc ncol)) in *.
  assert (Hin : In (y, x) pts).
  { destruct (grid_axis_ends nr nrow Hnr). destruct (grid_axis_ends nc ncol Hnc).
    apply grid_points_in. destruct Hx, Hy; subst; tauto. }
  assert (B1 : In (fst (uv_of wcs r2uv off cel ra' dec' (y, x)))
                  (map (fun p => fst (uv_of wcs r2uv off cel ra' dec' p)) pts))
    by (apply in_map_iff; exists (y, x); tauto).
  assert (B2 : In (snd (uv_of wcs r2uv off cel ra' dec' (y, x)))
                  (map (fun p => snd (uv_of wcs r2uv off cel ra' dec' p)) pts))
    by (apply in_map_iff; exists (y, x); tauto).
  apply A2 in B1 as C1. apply A4 in B1 as C2. apply A6 in B2 as C3. apply A8 in B2 as C4.
  unfold uv_of in C1, C2, C3, C4. cbn [fst snd] in C1, C2, C3, C4.
  destruct (wcs (x + off) (y + off)) as [r d]. cbn [fst snd] in *.
  unfold ccd_contains_radec. rewrite Hb.
  destruct cel.
  - destruct (r2uv r d ra' dec') as [u v]. cbn [fst snd] in *. apply contains_R. cbn. lra.
  - cbn [fst snd] in *. apply contains_R. cbn. lra.
Qed.
