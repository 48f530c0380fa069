(** Proofs about the object data. *)
From Coq Require Import ZArith List Bool Reals Lra Lia.
From Flocq Require Import Core.
From Verif Require Import Lib.Base Lib.Floats Spec.FloatSpec Model.Locate Model.ObjectData
  Spec.LocateSpec Spec.ObjectDataSpec
  Proofs.BaseFacts Proofs.F64Facts Proofs.LocateProofs.
Import ListNotations.
Open Scope Z_scope.

Section Any.
Context {F : Type} {FO : FloatOps F}.
Variable image2sky : F -> F -> result (F * F).
Variable get_jacobian : F -> F -> result (F * F * F * F).

(** One row of the result. *)
Definition row_ok (box psf buf : Z) (cen pcen : F) (off : Z) (i : Z) (l : F * F * F * F)
  (o : @object F) : Prop :=
  let '(row, col, srow, scol) := l in
  exists ra dec j0 j1 j2 j3,
    image2sky (fadd col (fofZ off)) (fadd row (fofZ off)) = Ok (ra, dec) /\
    get_jacobian (fadd col (fofZ off)) (fadd row (fofZ off)) = Ok (j0, j1, j2, j3) /\
    o = mkobject i box (-1) psf pcen pcen ra dec row col srow scol
          (fadd cen (fofZ buf)) (fadd cen (fofZ buf)) j0 j1 j2 j3.

Lemma fill_spec : forall box psf buf cen pcen off locs i objs,
  fill_objects image2sky get_jacobian i box psf buf cen pcen off locs = Ok objs ->
  length objs = length locs /\
  forall k l o, nth_error locs k = Some l -> nth_error objs k = Some o ->
    row_ok box psf buf cen pcen off (i + Z.of_nat k) l o.
Proof.
  intros box psf buf cen pcen off locs. induction locs as [|[[[row col] srow] scol] locs IH]; intros i objs.
  - cbn. intros E. injection E as <-. split; [reflexivity|]. intros [|k]; discriminate.
  - cbn [fill_objects]. destruct (image2sky _ _) as [[ra dec]|] eqn:E1; [|discriminate].
    cbn [bind]. destruct (get_jacobian _ _) as [[[[j0 j1] j2] j3]|] eqn:E2; [|discriminate].
    cbn [bind]. destruct (fill_objects _ _ _ _ _ _ _ _ _ _) as [rest|] eqn:E3; [|discriminate].
    cbn [bind]. intros E. injection E as <-. apply IH in E3. destruct E3 as [L H].
    split; [cbn; lia|]. intros [|k] l o Hl Ho; cbn in Hl, Ho.
    + injection Hl as <-. injection Ho as <-. rewrite Z.add_0_r.
      exists ra, dec, j0, j1, j2, j3. auto.
    + replace (i + Z.of_nat (S k)) with (i + 1 + Z.of_nat k) by lia. eauto.
Qed.

Lemma fill_total : forall box psf buf cen pcen off locs i,
  (forall x y, exists p, image2sky x y = Ok p) -> (forall x y, exists p, get_jacobian x y = Ok p) ->
  exists objs, fill_objects image2sky get_jacobian i box psf buf cen pcen off locs = Ok objs.
Proof.
  intros box psf buf cen pcen off locs i H1 H2. revert i.
  induction locs as [|[[[row col] srow] scol] locs IH]; intros i; [cbn; eauto|].
  cbn [fill_objects].
  destruct (H1 (fadd col (fofZ off)) (fadd row (fofZ off))) as [[ra dec] ->].
  destruct (H2 (fadd col (fofZ off)) (fadd row (fofZ off))) as [[[[j0 j1] j2] j3] ->].
  destruct (IH (i + 1)) as [rest E]. cbn [bind]. rewrite E. cbn [bind]. eauto.
Qed.

Lemma fill_raises : forall box psf buf cen pcen off locs i e,
  fill_objects image2sky get_jacobian i box psf buf cen pcen off locs = Raise e ->
  exists x y, image2sky x y = Raise e \/ get_jacobian x y = Raise e.
Proof.
  intros box psf buf cen pcen off locs.
  induction locs as [|[[[row col] srow] scol] locs IH]; intros i e; [discriminate|].
  cbn [fill_objects].
  destruct (image2sky _ _) as [[ra dec]|e1] eqn:E1; cbn [bind]; [|intros E; injection E as <-; eauto].
  destruct (get_jacobian _ _) as [[[[j0 j1] j2] j3]|e2] eqn:E2; cbn [bind];
    [|intros E; injection E as <-; eauto].
  destruct (fill_objects _ _ _ _ _ _ _ _ _ _) as [rest|e3] eqn:E3; cbn [bind]; [discriminate|].
  intros E. injection E as <-. eapply IH. exact E3.
Qed.

Lemma zip4_nth : forall (a b c d : list F) k x y z w,
  nth_error a k = Some x -> nth_error b k = Some y -> nth_error c k = Some z -> nth_error d k = Some w ->
  nth_error (zip4 a b c d) k = Some (x, y, z, w).
Proof.
  induction a as [|x0 a IH]; intros [|y0 b] [|z0 c] [|w0 d] [|k] x y z w; cbn; try discriminate.
  - congruence.
  - apply IH.
Qed.

Lemma zip4_len : forall (a b c d : list F), length b = length a -> length c = length a ->
  length d = length a -> length (zip4 a b c d) = length a.
Proof.
  induction a as [|x0 a IH]; intros [|y0 b] [|z0 c] [|w0 d]; cbn; try discriminate; [reflexivity|].
  intros H1 H2 H3. f_equal. apply IH; lia.
Qed.

End Any.

Lemma Forall2_nth_error {A B} (P : A -> B -> Prop) l m : Forall2 P l m ->
  forall k y, nth_error m k = Some y -> exists x, nth_error l k = Some x /\ P x y.
Proof.
  induction 1 as [|x y l m Hxy H IH]; intros [|k] z Hz; cbn in *; try discriminate.
  - injection Hz as <-. eauto.
  - apply IH. exact Hz.
Qed.

Lemma Forall2_lengths {A B} (P : A -> B -> Prop) l m : Forall2 P l m -> length l = length m.
Proof. induction 1; cbn; congruence. Qed.

Lemma centre_half c b s : stamp_centre c b s = (IZR (2 * s + c + 2 * b - 1) / 2)%R.
Proof. unfold stamp_centre. rewrite <- plus_IZR. do 2 f_equal. lia. Qed.

Theorem object_data_ok i2s jac c b W psf off objs :
  0 < c <= 2 ^ 50 -> 0 <= b <= 2 ^ 50 -> 0 <= W <= 2 ^ 50 -> 0 < psf <= 2 ^ 50 -> Z.abs off <= 2 ^ 50 ->
  build_object_data (F := f64) i2s jac c b W psf off = Ok objs ->
  exists starts : list (Z * Z),
    tiles_exactly c b W starts /\ row_major starts /\
    (forall s, In s starts -> stamp_inside c b W s) /\
    length objs = length starts /\
    forall i s o, nth_error starts i = Some s -> nth_error objs i = Some o ->
      describes i2s jac c b psf off i s o.
Proof.
  intros Hc Hb HW Hp Ho E. unfold build_object_data in E.
  destruct (build_slice_locations c b W) as [[[[rows cols] srows] scols]|] eqn:EL; [|discriminate].
  cbn [bind] in E.
  destruct (build_ok c b W rows cols srows scols ltac:(lia) ltac:(lia) ltac:(lia) EL)
    as (starts & Fsr & Fsc & Fr & Fc & T & R & S).
  exists starts. split; [exact T|]. split; [exact R|]. split; [exact S|].
  apply fill_spec in E. destruct E as [L H].
  pose proof (Forall2_lengths _ _ _ Fsr) as L1. pose proof (Forall2_lengths _ _ _ Fsc) as L2.
  pose proof (Forall2_lengths _ _ _ Fr) as L3. pose proof (Forall2_lengths _ _ _ Fc) as L4.
  rewrite map_length in L1, L2, L3, L4.
  split; [rewrite L, zip4_len; congruence|].
  intros i s o Hs Hob.
  destruct (Forall2_nth_error _ _ _ Fsr i (IZR (fst s)) ltac:(rewrite nth_error_map, Hs; reflexivity)) as (sr & Nsr & Isr).
  destruct (Forall2_nth_error _ _ _ Fsc i (IZR (snd s)) ltac:(rewrite nth_error_map, Hs; reflexivity)) as (sc & Nsc & Isc).
  destruct (Forall2_nth_error _ _ _ Fr i (stamp_centre c b (fst s)) ltac:(rewrite nth_error_map, Hs; reflexivity)) as (r & Nr & Ir).
  destruct (Forall2_nth_error _ _ _ Fc i (stamp_centre c b (snd s)) ltac:(rewrite nth_error_map, Hs; reflexivity)) as (q & Nq & Iq).
  specialize (H i _ o (zip4_nth _ _ _ _ i _ _ _ _ Nr Nq Nsr Nsc) Hob).
  destruct H as (ra & dec & j0 & j1 & j2 & j3 & H1 & H2 & ->).
  pose proof (S s (nth_error_In _ _ Hs)) as (B1 & B2 & B3 & B4).
  assert (CO : forall t, f64_is (fadd (fdiv (fofZ (c - 1)) (fofZ 2)) (fofZ b)) (stamp_centre c b t - IZR t)).
  { intros t. rewrite centre_half.
    replace (IZR (2 * t + c + 2 * b - 1) / 2 - IZR t)%R with (IZR ((c - 1) + 2 * b) / 2)%R
      by (rewrite ?minus_IZR, ?plus_IZR, ?minus_IZR, ?mult_IZR; field).
    apply half_is_sum; [apply cen_offset_is; lia|apply ofZ_is_half; lia|lia]. }
  assert (PC : f64_is (fdiv (fofZ (psf - 1)) (fofZ 2)) ((IZR 0 + IZR (psf - 1)) / 2)).
  { rewrite Rplus_0_l. apply cen_offset_is. lia. }
  assert (OF : forall t v, 0 <= t -> t + c + 2 * b <= W -> f64_is v (stamp_centre c b t) ->
     f64_is (fadd v (fofZ off)) (stamp_centre c b t + IZR off)).
  { intros t v T1 T2 Hv. rewrite centre_half in *.
    replace (IZR (2 * t + c + 2 * b - 1) / 2 + IZR off)%R with (IZR ((2 * t + c + 2 * b - 1) + 2 * off) / 2)%R
      by (rewrite (plus_IZR _ (2 * off)), (mult_IZR 2 off); field).
    apply half_is_sum; [assumption|apply ofZ_is_half; lia|lia]. }
  constructor; cbn [ob_id ob_box_size ob_file_id ob_psf_box_size ob_psf_cutout_row ob_psf_cutout_col
    ob_ra ob_dec ob_orig_row ob_orig_col ob_orig_start_row ob_orig_start_col ob_cutout_row ob_cutout_col
    ob_dudcol ob_dudrow ob_dvdcol ob_dvdrow]; auto.
  exists (fadd q (fofZ off)), (fadd r (fofZ off)).
  split; [apply OF; assumption|]. split; [apply OF; assumption|]. auto.
Qed.

Theorem object_data_total i2s jac c b W psf off :
  0 < c <= 2 ^ 50 -> 0 <= b <= 2 ^ 50 -> 0 <= W <= 2 ^ 50 ->
  (c | W - 2 * b) ->
  (forall x y, exists p, i2s x y = Ok p) -> (forall x y, exists p, jac x y = Ok p) ->
  exists objs, build_object_data (F := f64) i2s jac c b W psf off = Ok objs.
Proof.
  intros Hc Hb HW Hd H1 H2. unfold build_object_data.
  destruct (build_raises c b W ltac:(lia) ltac:(lia) ltac:(lia)) as [_ Hok].
  destruct (Hok Hd) as [[[[rows cols] srows] scols] E]. rewrite E. cbn [bind].
  apply fill_total; assumption.
Qed.

Theorem object_data_raises i2s jac c b W psf off e :
  0 < c <= 2 ^ 50 -> 0 <= b <= 2 ^ 50 -> 0 <= W <= 2 ^ 50 ->
  build_object_data (F := f64) i2s jac c b W psf off = Raise e ->
  (~ (c | W - 2 * b) /\ e = ValueError) \/
  exists x y, i2s x y = Raise e \/ jac x y = Raise e.
Proof.
  intros Hc Hb HW. unfold build_object_data.
  destruct (build_cases c b W ltac:(lia) ltac:(lia) ltac:(lia)) as [[Hd E]|(n & Hn & E)]; rewrite E; cbn [bind].
  - intros H. injection H as <-. auto.
  - intros H. right. eapply fill_raises. exact H.
Qed.
