From Coq Require Import ZArith List Bool Reals Lia Lra.
From Flocq Require Import Core.Raux.
From Verif Require Import Lib.Base Lib.Floats Model.Wrap Model.WcsGrid Spec.WrapSpec Spec.WcsGridSpec
  Proofs.BaseFacts Proofs.WrapProofs Proofs.SliceInputsProofs.
Import ListNotations.
Open Scope Z_scope.

Lemma mgrid_ok dim delta : 0 < delta -> 0 <= dim ->
  exists n, mgrid_nodes (dim + delta) delta = Ok (map (fun k => k * delta) (zrange 0 n)) /\
    1 <= n /\ forall k, k < n <-> k * delta < dim + delta.
Proof.
  intros Hd Hn. unfold mgrid_nodes.
  assert (E0 : (delta =? 0) = false) by (apply Z.eqb_neq; lia). rewrite E0.
  set (n := - (- (dim + delta) / delta)).
  assert (Hk : forall k, k < n <-> k * delta < dim + delta).
  { intros k. unfold n. pose proof (Z.div_mod (- (dim + delta)) delta ltac:(lia)) as Hdm.
    pose proof (Z.mod_pos_bound (- (dim + delta)) delta ltac:(lia)) as Hb.
    set (q := - (dim + delta) / delta) in *. split; intros H; nia. }
  assert (H1 : 1 <= n) by (assert (0 < n) by (apply Hk; lia); lia).
  assert (E1 : (n <? 0) = false) by (apply Z.ltb_ge; lia). rewrite E1.
  exists n. split; [reflexivity|]. split; assumption.
Qed.

Lemma mgrid_spec dim delta l : 0 < delta -> 0 <= dim -> mgrid_nodes (dim + delta) delta = Ok l ->
  NoDup l /\ (forall a, In a l <-> grid_line dim delta a) /\
  (forall i a, nth_error l i = Some a -> a = Z.of_nat i * delta).
Proof.
  intros Hd Hn H. destruct (mgrid_ok dim delta Hd Hn) as (n & E & H1 & Hk).
  rewrite E in H. apply Ok_inj in H. subst l. split; [|split].
  - apply FinFun.Injective_map_NoDup; [|apply NoDup_zrange]. intros x y Hxy. nia.
  - intros a. rewrite in_map_iff. unfold grid_line. split.
    + intros (k & <- & Hin). apply In_zrange in Hin. exists k. split; [lia|]. split; [reflexivity|].
      apply Hk. lia.
    + intros (k & H0 & -> & Hlt). exists k. split; [reflexivity|]. apply In_zrange. split; [lia|].
      apply Hk. exact Hlt.
  - intros i a Hi. rewrite nth_error_map in Hi.
    destruct (nth_error (zrange 0 n) i) as [z|] eqn:Ez; [|discriminate].
    cbn in Hi. injection Hi as <-.
    assert (Hlt : (i < length (zrange 0 n))%nat) by (apply nth_error_Some; congruence).
    rewrite zrange_length in Hlt. rewrite nth_error_zrange in Ez by exact Hlt.
    injection Ez as <-. lia.
Qed.

(** Every position of an axis lies between two neighbouring grid lines. *)
Lemma between_lines dim delta (x : R) : 0 < delta -> 0 < dim -> on_axis dim x ->
  exists a, grid_line dim delta a /\ grid_line dim delta (a + delta) /\
    (IZR a - 1 / 2 <= x <= IZR (a + delta) - 1 / 2)%R.
Proof.
  intros Hd Hn [Hl Hu].
  assert (Hd' : (0 < IZR delta)%R) by (apply (IZR_lt 0); lia).
  set (t := ((x + 1 / 2) / IZR delta)%R).
  assert (Ht : (x + 1 / 2 = t * IZR delta)%R) by (unfold t; field; lra).
  assert (Ht0 : (0 <= t)%R) by (unfold t; apply Rmult_le_pos; [lra|left; apply Rinv_0_lt_compat; lra]).
  pose proof (Zfloor_lb t) as Hf1. pose proof (Zfloor_ub t) as Hf2.
  set (k := Zfloor t) in *.
  assert (Hk0 : 0 <= k) by (unfold k; apply Zfloor_lub; exact Ht0).
  assert (Hkd : k * delta <= dim).
  { apply le_IZR. rewrite mult_IZR.
    assert (IZR k * IZR delta <= t * IZR delta)%R by (apply Rmult_le_compat_r; lra). lra. }
  destruct (Z.eq_dec (k * delta) dim) as [E|E].
  - (* on the last line *)
    assert (Hk1 : 1 <= k) by nia.
    exists ((k - 1) * delta). split; [|split].
    + exists (k - 1). repeat split; nia.
    + exists k. repeat split; nia.
    + assert (Hx : (x + 1 / 2 = IZR dim)%R).
      { apply Rle_antisym; [lra|]. rewrite <- E, mult_IZR, Ht. apply Rmult_le_compat_r; lra. }
      replace ((k - 1) * delta + delta) with dim by nia.
      split; [|lra]. replace ((k - 1) * delta) with (dim - delta) by nia. rewrite minus_IZR. lra.
  - exists (k * delta). split; [|split].
    + exists k. repeat split; nia.
    + exists (k + 1). repeat split; nia.
    + replace (k * delta + delta) with ((k + 1) * delta) by ring. rewrite !mult_IZR, plus_IZR.
      assert (IZR k * IZR delta <= t * IZR delta)%R by (apply Rmult_le_compat_r; lra).
      assert (t * IZR delta <= (IZR k + 1) * IZR delta)%R by (apply Rmult_le_compat_r; lra).
      lra.
Qed.

Lemma In_pairs ys xs y x : In (y, x) (mgrid_pairs ys xs) <-> In y ys /\ In x xs.
Proof.
  unfold mgrid_pairs. rewrite in_flat_map. split.
  - intros (v & Hv & H). apply in_map_iff in H as (u & E & Hu). injection E as <- <-. tauto.
  - intros [Hy Hx]. exists y. split; [exact Hy|]. apply in_map_iff. eauto.
Qed.

Lemma NoDup_pairs ys xs : NoDup ys -> NoDup xs -> NoDup (mgrid_pairs ys xs).
Proof.
  intros Hy Hx. unfold mgrid_pairs. apply NoDup_flat_map; [exact Hy| |].
  - intros y _. apply FinFun.Injective_map_NoDup; [|exact Hx]. intros a b H. congruence.
  - intros a b p _ _ Ha Hb. apply in_map_iff in Ha as (u & <- & _).
    apply in_map_iff in Hb as (v & E & _). injection E. intros. congruence.
Qed.

Lemma length_pairs ys xs : length (mgrid_pairs ys xs) = (length ys * length xs)%nat.
Proof.
  unfold mgrid_pairs. induction ys as [|y ys IH]; [reflexivity|].
  cbn [flat_map length]. rewrite app_length, map_length, IH. reflexivity.
Qed.

Lemma nth_pairs ys xs : forall i j y x, nth_error ys j = Some y -> nth_error xs i = Some x ->
  nth_error (mgrid_pairs ys xs) (j * length xs + i) = Some (y, x).
Proof.
  unfold mgrid_pairs. induction ys as [|y0 ys IH]; intros i j y x Hj Hi; [destruct j; discriminate|].
  assert (Hlt : (i < length xs)%nat) by (apply nth_error_Some; congruence).
  cbn [flat_map]. destruct j as [|j].
  - cbn in Hj. injection Hj as ->. cbn [Nat.mul Nat.add].
    rewrite nth_error_app1 by (rewrite map_length; exact Hlt). rewrite nth_error_map, Hi. reflexivity.
  - cbn [nth_error] in Hj. rewrite nth_error_app2 by (rewrite map_length; cbn; lia).
    rewrite map_length. replace (S j * length xs + i - length xs)%nat with (j * length xs + i)%nat by (cbn; lia).
    apply IH; assumption.
Qed.

Lemma combine_fst_snd {A B} (l : list (A * B)) : combine (map fst l) (map snd l) = l.
Proof. induction l as [|[a b] l IH]; cbn; [reflexivity|]. rewrite IH. reflexivity. Qed.

Lemma combine_maps {A B C} (f : A -> B) (g : A -> C) l : combine (map f l) (map g l) = map (fun a => (f a, g a)) l.
Proof. induction l as [|a l IH]; cbn; [reflexivity|]. rewrite IH. reflexivity. Qed.

Section Any.
Context {F : Type} {FO : FloatOps F}.

(** The tables in terms of the list of positions. *)
Lemma inverse_shape (s2i i2s : F -> F -> F * F) off dy dx delta inv fwd :
  get_wcs_inverse s2i i2s off (dy, dx) delta = Ok (inv, fwd) ->
  exists ys xs, mgrid_nodes (dy + delta) delta = Ok ys /\ mgrid_nodes (dx + delta) delta = Ok xs /\
  let pos := map (fun p => (fsub (fofZ (fst p)) fhalf, fsub (fofZ (snd p)) fhalf)) (mgrid_pairs ys xs) in
  let cx := fun p => fsub (fst (s2i (fst (i2s (snd p) (fst p))) (snd (i2s (snd p) (fst p))))) off in
  let cy := fun p => fsub (snd (s2i (fst (i2s (snd p) (fst p))) (snd (i2s (snd p) (fst p))))) off in
  inv = mk_inversion (map (fun p => (cy p, cx p)) pos) (map snd pos) (map fst pos) /\
  fwd = mk_inversion pos (map cx pos) (map cy pos).
Proof.
  unfold get_wcs_inverse, se_positions. cbn [fst snd].
  destruct (mgrid_nodes (dy + delta) delta) as [ys|e]; [|discriminate].
  destruct (mgrid_nodes (dx + delta) delta) as [xs|e]; [|discriminate].
  cbn [bind]. intros H. apply Ok_inj in H. apply pair_equal_spec in H as [<- <-].
  exists ys, xs. split; [reflexivity|]. split; [reflexivity|]. cbv zeta.
  set (pos := map _ (mgrid_pairs ys xs)).
  unfold inversion_init. rewrite !map_map, combine_fst_snd, combine_maps. split; reflexivity.
Qed.

Lemma inverse_total (s2i i2s : F -> F -> F * F) off dy dx delta : 0 < delta -> 0 <= dy -> 0 <= dx ->
  exists r, get_wcs_inverse s2i i2s off (dy, dx) delta = Ok r.
Proof.
  intros Hd Hy Hx. unfold get_wcs_inverse, se_positions. cbn [fst snd].
  destruct (mgrid_ok dy delta Hd Hy) as (n & -> & _).
  destruct (mgrid_ok dx delta Hd Hx) as (m & -> & _). cbn [bind]. eauto.
Qed.

Lemma all_some_nth {A} : forall (l : list (option A)) flat, all_some l = Some flat ->
  length flat = length l /\ forall k a d, nth_error l k = Some a -> a = Some (nth k flat d).
Proof.
  induction l as [|o l IH]; intros flat H.
  - injection H as <-. split; [reflexivity|]. intros [|k]; discriminate.
  - cbn [all_some] in H. destruct o as [a|]; [|discriminate].
    destruct (all_some l) as [fl|] eqn:E; [|discriminate]. injection H as <-.
    destruct (IH fl eq_refl) as [Hl Hn]. split; [cbn; lia|].
    intros [|k] b d Hk; cbn in Hk |- *; [congruence|]. apply Hn. exact Hk.
Qed.

Lemma all_some_total {A} (l : list (option A)) : (forall o, In o l -> exists a, o = Some a) ->
  exists flat, all_some l = Some flat.
Proof.
  induction l as [|o l IH]; intros H; [exists []; reflexivity|].
  destruct (H o (or_introl eq_refl)) as [a ->].
  destruct IH as [fl E]; [intros o Ho; apply H; right; exact Ho|].
  cbn. rewrite E. eauto.
Qed.

Lemma area_table (area : F -> F -> option F) dy dx delta off g :
  0 < delta -> 0 <= dy -> 0 <= dx ->
  get_wcs_area_interp area (dy, dx) delta off = Some (Ok g) ->
  mgrid_nodes (dx + delta) delta = Ok (sg_x g) /\ mgrid_nodes (dy + delta) delta = Ok (sg_y g) /\
  nrows (sg_values g) = Z.of_nat (length (sg_x g)) /\ ncols (sg_values g) = Z.of_nat (length (sg_y g)) /\
  forall i j a b, nth_error (sg_x g) i = Some a -> nth_error (sg_y g) j = Some b ->
  area (fadd (fsub (fofZ a) fhalf) off) (fadd (fsub (fofZ b) fhalf) off)
  = Some (px (sg_values g) (Z.of_nat i) (Z.of_nat j)).
Proof.
  intros Hd Hy Hx. unfold get_wcs_area_interp.
  destruct (mgrid_nodes (dy + delta) delta) as [ys|e] eqn:Ey.
  2:{ destruct (mgrid_nodes (dx + delta) delta); discriminate. }
  destruct (mgrid_nodes (dx + delta) delta) as [xs|e] eqn:Ex; [|discriminate].
  rewrite map_map. cbn [fst snd].
  destruct (all_some _) as [flat|] eqn:Ef; [|discriminate].
  destruct (all_some_nth _ _ Ef) as [_ Hn].
  destruct (_ || _); [discriminate|]. intros H.
  apply (f_equal (fun o => match o with Some r => r | None => Raise OtherError end)) in H.
  apply Ok_inj in H. subst g. cbn [sg_x sg_y sg_values nrows ncols px].
  do 4 (split; [reflexivity|]). intros i j a b Hi Hj.
  replace (Z.to_nat (Z.of_nat j * Z.of_nat (length xs) + Z.of_nat i)) with (j * length xs + i)%nat by lia.
  apply Hn. rewrite nth_error_map, (nth_pairs ys xs i j b a Hj Hi). reflexivity.
Qed.

Lemma mgrid_length dim delta l : 0 < delta -> 0 <= dim -> mgrid_nodes (dim + delta) delta = Ok l ->
  (Z.of_nat (length l) < 4 <-> dim <= 2 * delta).
Proof.
  intros Hd Hn H. destruct (mgrid_ok dim delta Hd Hn) as (n & E & H1 & Hk).
  rewrite E in H. apply Ok_inj in H. subst l. rewrite map_length, zrange_length.
  pose proof (Hk 3). lia.
Qed.

Lemma area_interp_outcome (area : F -> F -> option F) dy dx delta off :
  0 < delta -> 0 <= dy -> 0 <= dx ->
  (forall x y, exists a, area x y = Some a) ->
  (2 * delta < dy /\ 2 * delta < dx ->
   exists g, get_wcs_area_interp area (dy, dx) delta off = Some (Ok g)) /\
  (dy <= 2 * delta \/ dx <= 2 * delta ->
   get_wcs_area_interp area (dy, dx) delta off = Some (Raise OtherError)).
Proof.
  intros Hd Hy Hx Ha. unfold get_wcs_area_interp.
  destruct (mgrid_ok dy delta Hd Hy) as (n & Ey & _).
  destruct (mgrid_ok dx delta Hd Hx) as (m & Ex & _).
  pose proof (mgrid_length _ _ _ Hd Hy Ey) as Ly. pose proof (mgrid_length _ _ _ Hd Hx Ex) as Lx.
  rewrite Ey, Ex. rewrite map_map. cbn [fst snd].
  destruct (all_some_total (map (fun p : Z * Z =>
     area (fadd (fsub (fofZ (snd p)) fhalf) off) (fadd (fsub (fofZ (fst p)) fhalf) off))
     (mgrid_pairs (map (fun k => k * delta) (zrange 0 n)) (map (fun k => k * delta) (zrange 0 m)))))
    as [fl ->].
  { intros o Ho. apply in_map_iff in Ho as (p & <- & _). apply Ha. }
  split; intros H.
  - destruct (Z.ltb_spec (Z.of_nat (length (map (fun k => k * delta) (zrange 0 m)))) 4); [lia|].
    destruct (Z.ltb_spec (Z.of_nat (length (map (fun k => k * delta) (zrange 0 n)))) 4); [lia|].
    cbn [orb]. eauto.
  - destruct (Z.ltb_spec (Z.of_nat (length (map (fun k => k * delta) (zrange 0 m)))) 4); [reflexivity|].
    destruct (Z.ltb_spec (Z.of_nat (length (map (fun k => k * delta) (zrange 0 n)))) 4); [reflexivity|].
    lia.
Qed.
End Any.

Lemma mgrid_zero dim : mgrid_nodes (dim + 0) 0 = Raise ZeroDivisionError.
Proof. reflexivity. Qed.

(** ** Areas in exact arithmetic *)
Open Scope R_scope.

Lemma area_nonneg (i2s : R -> R -> R * R) celestial cos d2r fuel x y dxy a :
  compute_wcs_area i2s celestial cos d2r fuel x y dxy = Some a -> 0 <= a.
Proof.
  unfold compute_wcs_area.
  destruct (i2s x y) as [r0 d0]. destruct (i2s (fadd x dxy) y) as [r1 d1].
  destruct (i2s (fsub x dxy) y) as [r2 d2]. destruct (i2s x (fadd y dxy)) as [r3 d3].
  destruct (i2s x (fsub y dxy)) as [r4 d4].
  destruct celestial.
  - destruct (wrap_ra_diff fuel (fsub r1 r2)); [|discriminate].
    destruct (wrap_ra_diff fuel (fsub r3 r4)); [|discriminate].
    intros H. injection H as <-. apply Rabs_pos.
  - intros H. injection H as <-. apply Rabs_pos.
Qed.

Lemma area_flat (u v : R -> R -> R) cos d2r fuel x y dxy : dxy <> 0 ->
  compute_wcs_area (fun a b => (u a b, v a b)) false cos d2r fuel x y dxy
  = Some (Rabs (((u (x + dxy) y - u (x - dxy) y) / (2 * dxy)) * ((v x (y + dxy) - v x (y - dxy)) / (2 * dxy))
              - ((v (x + dxy) y - v (x - dxy) y) / (2 * dxy)) * ((u x (y + dxy) - u x (y - dxy)) / (2 * dxy)))).
Proof.
  intros Hd. unfold compute_wcs_area. cbn [fadd fsub fabs fmul fdiv ROps].
  do 2 f_equal. unfold fhalf, fdec. cbn [fdiv fofZ ROps]. field. exact Hd.
Qed.

Lemma area_branch (ra dec : R -> R -> R) (branch : R -> R -> Z) cos d2r x y dxy : dxy <> 0 ->
  Rabs (ra (x + dxy) y - ra (x - dxy) y) < 180 ->
  Rabs (ra x (y + dxy) - ra x (y - dxy)) < 180 ->
  exists n, forall m, (n <= m)%nat ->
  compute_wcs_area (fun a b => (ra a b + 360 * IZR (branch a b), dec a b)) true cos d2r m x y dxy
  = Some (Rabs (3600 * 3600 * cos (dec x y * d2r) *
      (((ra (x + dxy) y - ra (x - dxy) y) / (2 * dxy)) * ((dec x (y + dxy) - dec x (y - dxy)) / (2 * dxy))
     - ((dec (x + dxy) y - dec (x - dxy) y) / (2 * dxy)) * ((ra x (y + dxy) - ra x (y - dxy)) / (2 * dxy))))).
Proof.
  intros Hd Hx Hy.
  destruct (wrap_small _ (branch (x + dxy) y - branch (x - dxy) y) Hx) as [n1 H1].
  destruct (wrap_small _ (branch x (y + dxy) - branch x (y - dxy)) Hy) as [n2 H2].
  exists (Nat.max n1 n2). intros m Hm. unfold compute_wcs_area.
  cbn [fadd fsub fabs fmul fdiv fofZ ROps].
  replace (ra (x + dxy) y + 360 * IZR (branch (x + dxy) y) - (ra (x - dxy) y + 360 * IZR (branch (x - dxy) y)))
    with (ra (x + dxy) y - ra (x - dxy) y + 360 * IZR (branch (x + dxy) y - branch (x - dxy) y))
    by (rewrite minus_IZR; ring).
  replace (ra x (y + dxy) + 360 * IZR (branch x (y + dxy)) - (ra x (y - dxy) + 360 * IZR (branch x (y - dxy))))
    with (ra x (y + dxy) - ra x (y - dxy) + 360 * IZR (branch x (y + dxy) - branch x (y - dxy)))
    by (rewrite minus_IZR; ring).
  rewrite H1 by lia. rewrite H2 by lia.
  f_equal. rewrite <- Rabs_Ropp. f_equal.
  unfold fhalf, fdec. cbn [fdiv fofZ ROps]. field. exact Hd.
Qed.
