(** C56, C57: WCS lookup tables and pixel areas. *)
From Coq Require Import ZArith List Bool Reals Lia Lra.
From Verif Require Import Lib.Base Lib.Floats Model.Wrap Model.Affine Model.WcsGrid Spec.WrapSpec
  Spec.WcsGridSpec Proofs.BaseFacts Proofs.SliceInputsProofs Proofs.WrapProofs Proofs.WcsGridProofs.
Import ListNotations.
Open Scope Z_scope.

(** C56: the positions of the table are the crossings of the grid lines, moved by
    half a pixel, each once. *)
Theorem C56_positions :
  forall (sky2image se_image2sky : R -> R -> R * R) (offset : R) (dim_y dim_x delta : Z)
         (inv fwd : inversion R),
  0 < delta -> 0 <= dim_y -> 0 <= dim_x ->
  get_wcs_inverse sky2image se_image2sky offset (dim_y, dim_x) delta = Ok (inv, fwd) ->
  NoDup (inv_pts fwd) /\
  forall x y : R, In (y, x) (inv_pts fwd) <->
    exists a b, grid_line dim_x delta a /\ grid_line dim_y delta b /\
      x = (IZR a - 1 / 2)%R /\ y = (IZR b - 1 / 2)%R.
Proof.
  intros s2i i2s off dy dx delta inv fwd Hd Hy Hx H.
  destruct (inverse_shape _ _ _ _ _ _ _ _ H) as (ys & xs & Ey & Ex & _ & ->).
  destruct (mgrid_spec _ _ _ Hd Hy Ey) as (Ny & Iy & _).
  destruct (mgrid_spec _ _ _ Hd Hx Ex) as (Nx & Ix & _).
  cbn [inv_pts]. split.
  - apply FinFun.Injective_map_NoDup; [|apply NoDup_pairs; assumption].
    intros [b a] [b' a'] E. cbn [fst snd fsub fofZ ROps] in E.
    apply pair_equal_spec in E as [E1 E2].
    assert (IZR b = IZR b') by lra. assert (IZR a = IZR a') by lra.
    f_equal; apply eq_IZR; assumption.
  - intros x y. rewrite in_map_iff. split.
    + intros ([b a] & E & Hin). apply In_pairs in Hin as [Hb Ha].
      apply pair_equal_spec in E as [E1 E2].
      exists a, b. split; [apply Ix; exact Ha|]. split; [apply Iy; exact Hb|]. split; symmetry; assumption.
    + intros (a & b & Ha & Hb & -> & ->). exists (b, a). split; [reflexivity|].
      apply In_pairs. split; [apply Iy|apply Ix]; assumption.
Qed.

(** C56: every position of the SE image, to the outer edges of its pixels, is in a
    cell of the table: all four corners around it are tabulated. *)
Theorem C56_grid_covers_the_image :
  forall (sky2image se_image2sky : R -> R -> R * R) (offset : R) (dim_y dim_x delta : Z)
         (inv fwd : inversion R),
  0 < delta -> 0 < dim_y -> 0 < dim_x ->
  get_wcs_inverse sky2image se_image2sky offset (dim_y, dim_x) delta = Ok (inv, fwd) ->
  forall x y : R, on_axis dim_x x -> on_axis dim_y y ->
  exists x0 y0 : R,
    let x1 := (x0 + IZR delta)%R in
    let y1 := (y0 + IZR delta)%R in
    (x0 <= x <= x1)%R /\ (y0 <= y <= y1)%R /\
    In (y0, x0) (inv_pts fwd) /\ In (y0, x1) (inv_pts fwd) /\
    In (y1, x0) (inv_pts fwd) /\ In (y1, x1) (inv_pts fwd).
Proof.
  intros s2i i2s off dy dx delta inv fwd Hd Hy Hx H x y Hax Hay.
  destruct (C56_positions _ _ _ _ _ _ _ _ Hd (Z.lt_le_incl _ _ Hy) (Z.lt_le_incl _ _ Hx) H) as [_ Hin].
  destruct (between_lines dx delta x Hd Hx Hax) as (a & Ha & Ha' & Hbx).
  destruct (between_lines dy delta y Hd Hy Hay) as (b & Hb & Hb' & Hby).
  exists (IZR a - 1 / 2)%R, (IZR b - 1 / 2)%R. cbv zeta.
  replace (IZR a - 1 / 2 + IZR delta)%R with (IZR (a + delta) - 1 / 2)%R by (rewrite plus_IZR; ring).
  replace (IZR b - 1 / 2 + IZR delta)%R with (IZR (b + delta) - 1 / 2)%R by (rewrite plus_IZR; ring).
  split; [exact Hbx|]. split; [exact Hby|].
  repeat split; apply Hin.
  - exists a, b. tauto.
  - exists (a + delta), b. tauto.
  - exists a, (b + delta). tauto.
  - exists (a + delta), (b + delta). tauto.
Qed.

(** C56: the table always exists; a zero step is refused. *)
Theorem C56_table_exists :
  forall (F : Type) (FO : FloatOps F) (sky2image se_image2sky : F -> F -> F * F) (offset : F)
         (dim_y dim_x delta : Z),
  0 < delta -> 0 <= dim_y -> 0 <= dim_x ->
  exists tables, get_wcs_inverse sky2image se_image2sky offset (dim_y, dim_x) delta = Ok tables.
Proof. intros F FO. exact inverse_total. Qed.

Theorem C56_zero_step :
  forall (F : Type) (FO : FloatOps F) (sky2image se_image2sky : F -> F -> F * F) (offset : F)
         (shape : Z * Z),
  get_wcs_inverse sky2image se_image2sky offset shape 0 = Raise ZeroDivisionError.
Proof. reflexivity. Qed.

(** C56: in any arithmetic, the k-th entries of the two tables are: an SE position
    and the coadd position (sky, then image, minus the offset) it maps to; one
    table has the first as the point and the second as the value, the other the
    reverse. *)
Theorem C56_entries :
  forall (F : Type) (FO : FloatOps F) (sky2image se_image2sky : F -> F -> F * F) (offset : F)
         (shape : Z * Z) (delta : Z) (inv fwd : inversion F),
  get_wcs_inverse sky2image se_image2sky offset shape delta = Ok (inv, fwd) ->
  (length (inv_pts inv) = length (inv_pts fwd) /\
   length (inv_x inv) = length (inv_pts fwd) /\ length (inv_y inv) = length (inv_pts fwd) /\
   length (inv_x fwd) = length (inv_pts fwd) /\ length (inv_y fwd) = length (inv_pts fwd)) /\
  forall k y x, nth_error (inv_pts fwd) k = Some (y, x) ->
  let '(ra, dec) := se_image2sky x y in
  let '(xc, yc) := sky2image ra dec in
  nth_error (inv_x fwd) k = Some (fsub xc offset) /\
  nth_error (inv_y fwd) k = Some (fsub yc offset) /\
  nth_error (inv_pts inv) k = Some (fsub yc offset, fsub xc offset) /\
  nth_error (inv_x inv) k = Some x /\ nth_error (inv_y inv) k = Some y.
Proof.
  intros F FO s2i i2s off [dy dx] delta inv fwd H.
  destruct (inverse_shape _ _ _ _ _ _ _ _ H) as (ys & xs & _ & _ & -> & ->).
  cbn [inv_pts inv_x inv_y]. set (pos := map _ (mgrid_pairs ys xs)). clearbody pos.
  rewrite !map_length. split; [tauto|]. intros k y x Hk.
  destruct (i2s x y) as [ra dec] eqn:E1. destruct (s2i ra dec) as [xc yc] eqn:E2.
  rewrite !nth_error_map, Hk. cbn [option_map fst snd]. rewrite E1. cbn [fst snd]. rewrite E2.
  cbn [fst snd]. tauto.
Qed.

(** C56: so the forward table returns, at a tabulated position, the coadd position;
    and the inverse table returns the SE position for the coadd position, when no
    two tabulated positions have the same one. *)
Theorem C56_forward_at_the_nodes :
  forall (ct : list (R * R) -> list R -> R * R -> R) (sky2image se_image2sky : R -> R -> R * R)
         (offset : R) (dim_y dim_x delta : Z) (inv fwd : inversion R) (x y : R),
  reproduces ct -> 0 < delta -> 0 <= dim_y -> 0 <= dim_x ->
  get_wcs_inverse sky2image se_image2sky offset (dim_y, dim_x) delta = Ok (inv, fwd) ->
  In (y, x) (inv_pts fwd) ->
  let '(ra, dec) := se_image2sky x y in
  let '(xc, yc) := sky2image ra dec in
  inversion_call ct fwd x y = (xc - offset, yc - offset)%R.
Proof.
  intros ct s2i i2s off dy dx delta inv fwd x y Hct Hd Hy Hx H Hin.
  destruct (C56_positions _ _ _ _ _ _ _ _ Hd Hy Hx H) as [Hnd _].
  apply In_nth_error in Hin as [k Hk].
  pose proof (proj2 (C56_entries _ _ _ _ _ _ _ _ _ H) k y x Hk) as He.
  destruct (i2s x y) as [ra dec]. destruct (s2i ra dec) as [xc yc].
  destruct He as (E1 & E2 & _). unfold inversion_call.
  rewrite (Hct _ _ _ _ _ Hnd Hk E1), (Hct _ _ _ _ _ Hnd Hk E2). reflexivity.
Qed.

Theorem C56_inverse_at_the_nodes :
  forall (ct : list (R * R) -> list R -> R * R -> R) (sky2image se_image2sky : R -> R -> R * R)
         (offset : R) (dim_y dim_x delta : Z) (inv fwd : inversion R) (x y : R),
  reproduces ct ->
  (forall x y x' y', let s := se_image2sky x y in let s' := se_image2sky x' y' in
     sky2image (fst s) (snd s) = sky2image (fst s') (snd s') -> (x, y) = (x', y')) ->
  0 < delta -> 0 <= dim_y -> 0 <= dim_x ->
  get_wcs_inverse sky2image se_image2sky offset (dim_y, dim_x) delta = Ok (inv, fwd) ->
  In (y, x) (inv_pts fwd) ->
  let '(ra, dec) := se_image2sky x y in
  let '(xc, yc) := sky2image ra dec in
  inversion_call ct inv (xc - offset)%R (yc - offset)%R = (x, y).
Proof.
  intros ct s2i i2s off dy dx delta inv fwd x y Hct Hinj Hd Hy Hx H Hin.
  destruct (C56_positions _ _ _ _ _ _ _ _ Hd Hy Hx H) as [Hnd _].
  apply In_nth_error in Hin as [k Hk].
  pose proof (proj2 (C56_entries _ _ _ _ _ _ _ _ _ H) k y x Hk) as He.
  assert (Hnd' : NoDup (inv_pts inv)).
  { destruct (inverse_shape _ _ _ _ _ _ _ _ H) as (ys & xs & _ & _ & -> & ->).
    cbn [inv_pts] in *. clear Hk He. set (pos := map _ (mgrid_pairs ys xs)) in *. clearbody pos.
    apply FinFun.Injective_map_NoDup; [|exact Hnd].
    intros [v u] [v' u'] E. cbn [fst snd fsub ROps] in E. apply pair_equal_spec in E as [E1 E2].
    specialize (Hinj u v u' v'). cbv zeta in Hinj.
    assert (Hp : (u, v) = (u', v')); [|congruence]. apply Hinj.
    destruct (s2i (fst (i2s u v)) (snd (i2s u v))) as [p q].
    destruct (s2i (fst (i2s u' v')) (snd (i2s u' v'))) as [p' q'].
    cbn [fst snd] in E1, E2. f_equal; lra. }
  destruct (i2s x y) as [ra dec]. destruct (s2i ra dec) as [xc yc].
  destruct He as (_ & _ & E0 & E1 & E2). unfold inversion_call.
  f_equal; [exact (Hct _ _ _ _ _ Hnd' E0 E1)|exact (Hct _ _ _ _ _ Hnd' E0 E2)].
Qed.

(** C57: areas are not negative. *)
Theorem C57_area_nonnegative :
  forall (image2sky : R -> R -> R * R) (celestial : bool) (cos : R -> R) (d2r : R) (fuel : nat)
         (x y dxy a : R),
  compute_wcs_area image2sky celestial cos d2r fuel x y dxy = Some a -> (0 <= a)%R.
Proof. exact area_nonneg. Qed.

(** C57: for a WCS that is not celestial the area is the absolute value of the
    determinant of the central differences ... *)
Theorem C57_flat_area :
  forall (u v : R -> R -> R) (cos : R -> R) (d2r : R) (fuel : nat) (x y dxy : R),
  dxy <> 0%R ->
  let d (f : R -> R -> R) := ((f (x + dxy) y - f (x - dxy) y) / (2 * dxy))%R in
  let e (f : R -> R -> R) := ((f x (y + dxy) - f x (y - dxy)) / (2 * dxy))%R in
  compute_wcs_area (fun a b => (u a b, v a b)) false cos d2r fuel x y dxy
  = Some (Rabs (d u * e v - d v * e u))%R.
Proof. exact area_flat. Qed.

(** C57: ... so |det| for an affine WCS, at every position. *)
Theorem C57_affine_area :
  forall (w : affine R) (cos : R -> R) (d2r : R) (fuel : nat) (x y dxy : R),
  dxy <> 0%R ->
  compute_wcs_area (image2sky w) (affine_is_celestial w) cos d2r fuel x y dxy
  = Some (Rabs (dudx w * dvdy w - dvdx w * dudy w))%R.
Proof.
  intros w cs d2r fuel x y dxy Hd. unfold affine_is_celestial.
  change (image2sky w) with (fun a b : R => (fst (image2sky w a b), snd (image2sky w a b))).
  rewrite (area_flat (fun a b => fst (image2sky w a b)) (fun a b => snd (image2sky w a b)))
    by exact Hd.
  unfold image2sky. cbn [fst snd fadd fsub fmul ROps]. do 2 f_equal. field. exact Hd.
Qed.

(** C57: for a celestial WCS it is the determinant in arc seconds, right ascension
    scaled by the cosine of the declination; whole turns in the right ascensions
    that the WCS returns make no difference. *)
Theorem C57_celestial_area :
  forall (ra dec : R -> R -> R) (branch : R -> R -> Z) (cos : R -> R) (d2r x y dxy : R),
  dxy <> 0%R ->
  (Rabs (ra (x + dxy) y - ra (x - dxy) y) < 180)%R ->
  (Rabs (ra x (y + dxy) - ra x (y - dxy)) < 180)%R ->
  let d (f : R -> R -> R) := ((f (x + dxy) y - f (x - dxy) y) / (2 * dxy))%R in
  let e (f : R -> R -> R) := ((f x (y + dxy) - f x (y - dxy)) / (2 * dxy))%R in
  exists n, forall m, (n <= m)%nat ->
  compute_wcs_area (fun a b => (ra a b + 360 * IZR (branch a b), dec a b)%R) true cos d2r m x y dxy
  = Some (Rabs (3600 * 3600 * cos (dec x y * d2r) * (d ra * e dec - d dec * e ra)))%R.
Proof. exact area_branch. Qed.

(** C57: the table of areas, in any arithmetic: the value stored for the node
    [(a, b)] is the area at [(a - 1/2 + offset, b - 1/2 + offset)], x being the
    first index. *)
Theorem C57_area_table :
  forall (F : Type) (FO : FloatOps F) (area : F -> F -> option F) (dim_y dim_x delta : Z)
         (offset : F) (g : scalar_grid F),
  0 < delta -> 0 <= dim_y -> 0 <= dim_x ->
  get_wcs_area_interp area (dim_y, dim_x) delta offset = Some (Ok g) ->
  (forall a, In a (sg_x g) <-> grid_line dim_x delta a) /\
  (forall b, In b (sg_y g) <-> grid_line dim_y delta b) /\
  forall i j a b, nth_error (sg_x g) i = Some a -> nth_error (sg_y g) j = Some b ->
  a = Z.of_nat i * delta /\ b = Z.of_nat j * delta /\
  area (fadd (fsub (fofZ a) fhalf) offset) (fadd (fsub (fofZ b) fhalf) offset)
  = Some (px (sg_values g) (Z.of_nat i) (Z.of_nat j)).
Proof.
  intros F FO area dy dx delta off g Hd Hy Hx H.
  destruct (area_table _ _ _ _ _ _ Hd Hy Hx H) as (Ex & Ey & _ & _ & Hv).
  destruct (mgrid_spec _ _ _ Hd Hx Ex) as (_ & Ix & Nx).
  destruct (mgrid_spec _ _ _ Hd Hy Ey) as (_ & Iy & Ny).
  split; [exact Ix|]. split; [exact Iy|]. intros i j a b Ha Hb.
  split; [exact (Nx _ _ Ha)|]. split; [exact (Ny _ _ Hb)|]. exact (Hv _ _ _ _ Ha Hb).
Qed.

(** C57: the table can be built exactly for images larger than twice the step. *)
Theorem C57_table_exists :
  forall (F : Type) (FO : FloatOps F) (area : F -> F -> option F) (dim_y dim_x delta : Z) (offset : F),
  0 < delta -> 0 <= dim_y -> 0 <= dim_x -> (forall x y, exists a, area x y = Some a) ->
  (2 * delta < dim_y /\ 2 * delta < dim_x ->
   exists g, get_wcs_area_interp area (dim_y, dim_x) delta offset = Some (Ok g)) /\
  (dim_y <= 2 * delta \/ dim_x <= 2 * delta ->
   get_wcs_area_interp area (dim_y, dim_x) delta offset = Some (Raise OtherError)).
Proof. intros F FO. exact area_interp_outcome. Qed.

(** C57: so, looked up at a node, the interpolant returns the area half a pixel
    towards the origin in both coordinates. *)
Theorem C57_lookup_is_half_a_pixel_off :
  forall (spline : list Z -> list Z -> img R -> R -> R -> R) (area : R -> R -> option R)
         (dim_y dim_x delta : Z) (offset : R) (g : scalar_grid R) (a b : Z),
  grid_reproduces spline -> 0 < delta -> 0 <= dim_y -> 0 <= dim_x ->
  get_wcs_area_interp area (dim_y, dim_x) delta offset = Some (Ok g) ->
  grid_line dim_x delta a -> grid_line dim_y delta b ->
  area (IZR a - 1 / 2 + offset)%R (IZR b - 1 / 2 + offset)%R
  = Some (scalar_call spline g (IZR a) (IZR b)).
Proof.
  intros spline area dy dx delta off g a b Hs Hd Hy Hx H Ha Hb.
  destruct (area_table _ _ _ _ _ _ Hd Hy Hx H) as (Ex & Ey & _ & _ & Hv).
  destruct (mgrid_spec _ _ _ Hd Hx Ex) as (Ndx & Ix & Nx).
  destruct (mgrid_spec _ _ _ Hd Hy Ey) as (Ndy & Iy & Ny).
  apply Ix in Ha. apply Iy in Hb.
  apply In_nth_error in Ha as [i Hi]. apply In_nth_error in Hb as [j Hj].
  unfold scalar_call. rewrite (Hs _ _ _ _ _ _ _ Ndx Ndy Hi Hj). exact (Hv _ _ _ _ Hi Hj).
Qed.

(** C57, refuted: that the interpolant at a node is the area at that node. The
    witness is [(x, y) -> (x^2 / 2, y)], whose pixel area is [|x|]. *)
Definition quadratic_map (x y : R) : R * R := (x * x / 2, y)%R.
Definition quadratic_area (x y : R) : option R :=
  compute_wcs_area quadratic_map false (fun v => v) 0%R 0 x y 1%R.

Lemma quadratic_area_value x y : quadratic_area x y = Some (Rabs x).
Proof.
  unfold quadratic_area, quadratic_map.
  rewrite (area_flat (fun x _ => x * x / 2)%R (fun _ y => y)) by lra.
  do 2 f_equal. field.
Qed.

Theorem C57_lookup_at_the_node_refuted :
  ~ (forall (spline : list Z -> list Z -> img R -> R -> R -> R) (area : R -> R -> option R)
            (dim_y dim_x delta : Z) (offset : R) (g : scalar_grid R) (a b : Z),
     grid_reproduces spline -> 0 < delta -> 0 <= dim_y -> 0 <= dim_x ->
     get_wcs_area_interp area (dim_y, dim_x) delta offset = Some (Ok g) ->
     grid_line dim_x delta a -> grid_line dim_y delta b ->
     area (IZR a + offset)%R (IZR b + offset)%R = Some (scalar_call spline g (IZR a) (IZR b))).
Proof.
  intros H.
  (* a method that reproduces its data: look the position up among the nodes *)
  set (find := fix find (l : list Z) (x : R) : Z :=
         match l with [] => 0 | a :: l => if Req_EM_T (IZR a) x then 0 else 1 + find l x end).
  set (spline := fun xs ys (t : img R) x y => px t (find xs x) (find ys y)).
  assert (Hf : forall l i a, NoDup l -> nth_error l i = Some a -> find l (IZR a) = Z.of_nat i).
  { induction l as [|c l IH]; intros i a Hnd Hi; [destruct i; discriminate|].
    inversion Hnd as [|? ? Hc Hnd']; subst. destruct i as [|i]; cbn in Hi.
    - injection Hi as ->. cbn. destruct (Req_EM_T (IZR a) (IZR a)); [reflexivity|congruence].
    - cbn [find]. destruct (Req_EM_T (IZR c) (IZR a)) as [E|E].
      + apply eq_IZR in E. subst c. exfalso. apply Hc. exact (nth_error_In _ _ Hi).
      + rewrite (IH i a Hnd' Hi). lia. }
  assert (Hs : grid_reproduces spline).
  { intros xs ys t i j a b Nx Ny Hi Hj. unfold spline. rewrite (Hf xs i a Nx Hi), (Hf ys j b Ny Hj).
    reflexivity. }
  assert (Ht : exists g, get_wcs_area_interp quadratic_area (9, 9) 4 0%R = Some (Ok g)).
  { apply (proj1 (area_interp_outcome quadratic_area 9 9 4 0%R ltac:(lia) ltac:(lia) ltac:(lia)
             (fun x y => ex_intro _ _ (quadratic_area_value x y)))). lia. }
  destruct Ht as [g Hg].
  assert (Hl : grid_line 9 4 4) by (exists 1; lia).
  pose proof (H spline quadratic_area 9 9 4 0%R g 4 4 Hs ltac:(lia) ltac:(lia) ltac:(lia) Hg Hl Hl) as H1.
  pose proof (C57_lookup_is_half_a_pixel_off spline quadratic_area 9 9 4 0%R g 4 4 Hs ltac:(lia)
                ltac:(lia) ltac:(lia) Hg Hl Hl) as H2.
  rewrite quadratic_area_value in H1, H2. rewrite <- H2 in H1. injection H1 as H1.
  rewrite !Rabs_pos_eq in H1 by lra. lra.
Qed.

(** Concrete: the grid of an image of 5 rows and 8 columns with step 4 (the rows
    end beyond the image, the columns at its edge), for an affine WCS and a coadd
    WCS that differ by a scale of 2 and a shift. *)
Definition se_affine : affine R := (mk_affine 2 1 1 1 0 0 1)%R.
Definition coadd_affine : affine R := (mk_affine 1 0 0 1 3 4 1)%R.

Example C56_example_nodes :
  mgrid_nodes (5 + 4) 4 = Ok [0; 4; 8] /\ mgrid_nodes (8 + 4) 4 = Ok [0; 4; 8] /\
  mgrid_nodes (9 + 4) 4 = Ok [0; 4; 8; 12].
Proof. repeat split; vm_compute; reflexivity. Qed.

Example C56_example_injective : forall x y x' y' : R,
  let s := image2sky se_affine x y in let s' := image2sky se_affine x' y' in
  sky2image coadd_affine (fst s) (snd s) = sky2image coadd_affine (fst s') (snd s') ->
  (x, y) = (x', y').
Proof.
  intros x y x' y'. cbv zeta. unfold image2sky, sky2image, se_affine, coadd_affine.
  cbn [fst snd dudx dudy dvdx dvdy x0 y0 det fadd fsub fmul fdiv ROps fneg fzero fofZ].
  intros E. apply pair_equal_spec in E as [E1 E2]. unfold fneg, fzero in E2. cbn in E2.
  f_equal; lra.
Qed.

Example C56_example_reproducing_method :
  exists ct, reproduces (F := R) ct /\
  exists inv fwd, get_wcs_inverse (sky2image coadd_affine) (image2sky se_affine) 1%R (5, 8) 4
                  = Ok (inv, fwd) /\ In (-(1/2), IZR 8 - 1/2)%R (inv_pts fwd).
Proof.
  set (eqp := fun (p q : R * R) => if Req_EM_T (fst p) (fst q) then
                                    if Req_EM_T (snd p) (snd q) then true else false else false).
  assert (He : forall p q, eqp p q = true <-> p = q).
  { intros [a b] [c d]. unfold eqp. cbn [fst snd].
    destruct (Req_EM_T a c); [destruct (Req_EM_T b d)|]; split; congruence. }
  exists (fix ct (pts : list (R * R)) (vals : list R) (p : R * R) : R :=
            match pts, vals with
            | q :: pts, v :: vals => if eqp q p then v else ct pts vals p
            | _, _ => 0%R
            end). split.
  - intros pts. induction pts as [|q pts IH]; intros vals k p v Hnd Hk Hv; [destruct k; discriminate|].
    inversion Hnd as [|? ? Hq Hnd']; subst.
    destruct vals as [|w vals]; [destruct k; discriminate|].
    destruct k as [|k]; cbn [nth_error] in Hk, Hv.
    + injection Hk as ->. injection Hv as ->.
      destruct (eqp p p) eqn:E; [reflexivity|]. pose proof (proj2 (He p p) eq_refl). congruence.
    + destruct (eqp q p) eqn:E.
      * apply He in E. subst q. exfalso. apply Hq. exact (nth_error_In _ _ Hk).
      * exact (IH vals k p v Hnd' Hk Hv).
  - destruct (C56_table_exists R _ (sky2image coadd_affine) (image2sky se_affine) 1%R 5 8 4
                ltac:(lia) ltac:(lia) ltac:(lia)) as [[inv fwd] H].
    exists inv, fwd. split; [exact H|].
    refine (proj2 (proj2 (C56_positions _ _ _ 5 8 4 inv fwd _ _ _ H) _ _) _); [lia|lia|lia|].
    exists 8, 0. split; [exists 2; lia|]. split; [exists 0; lia|]. split; lra.
Qed.

(** Concrete: the area of a pixel of the SE WCS above, and of a celestial one that
    straddles the meridian. *)
Example C57_example_affine :
  compute_wcs_area (image2sky se_affine) false (fun v => v) 0%R 0 3%R 7%R 1%R = Some 1%R.
Proof.
  rewrite (C57_affine_area se_affine) by lra. f_equal. cbn [dudx dvdy dvdx dudy se_affine].
  rewrite Rabs_pos_eq; lra.
Qed.

Example C57_example_celestial :
  exists m, compute_wcs_area
    (fun x y => (x / 3600 + 360 * IZR (if Rlt_dec x 0 then 1 else 0), y / 3600)%R) true
    (fun _ => 1 / 2)%R 0%R m 0%R 0%R 1%R = Some (1 / 2)%R.
Proof.
  destruct (C57_celestial_area (fun x _ => x / 3600)%R (fun _ y => y / 3600)%R
             (fun x _ => if Rlt_dec x 0 then 1 else 0) (fun _ => 1 / 2)%R 0%R 0%R 0%R 1%R) as [n H].
  - lra.
  - rewrite Rabs_pos_eq; lra.
  - rewrite Rabs_pos_eq; lra.
  - exists n. specialize (H n (le_n n)). cbv zeta in H.
    replace (Rabs _) with (1 / 2)%R in H.
    + exact H.
    + rewrite Rabs_pos_eq; lra.
Qed.

Print Assumptions C56_positions.
Print Assumptions C56_grid_covers_the_image.
Print Assumptions C56_entries.
Print Assumptions C56_inverse_at_the_nodes.
Print Assumptions C57_area_nonnegative.
Print Assumptions C57_affine_area.
Print Assumptions C57_celestial_area.
Print Assumptions C57_area_table.
Print Assumptions C57_lookup_is_half_a_pixel_off.
Print Assumptions C57_lookup_at_the_node_refuted.
