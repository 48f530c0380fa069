(** A slice as a whole: lookup tables, resampling and the assumptions of C72. *)
From Coq Require Import ZArith List Bool String Lia Reals Lra.
From Flocq Require Import Core.
From Coq Require Import List.
From Verif Require Import Lib.Base Lib.Floats Model.Wrap Model.Jobs Model.Locate Model.ObjectData Model.Lanczos Model.WcsGrid Model.SeImage Model.SeWcs
  Model.PsfImage Model.Resample Model.SliceInputs Model.Coadd Model.SingleSlice Model.Epoch Model.Whole
  Spec.LanczosSpec Spec.WrapSpec Spec.CoaddSpec Spec.WcsGridSpec Spec.SeImageSpec Spec.SeWcsSpec Spec.PsfSpec
  Spec.ResampleSpec Spec.SliceInputsSpec Spec.SingleSliceSpec Spec.EpochSpec Spec.WholeSpec
  Proofs.BaseFacts Proofs.SliceInputsProofs Proofs.WrapProofs Proofs.WcsGridProofs Proofs.SeWcsProofs
  Proofs.ResampleProofs Proofs.EpochProofs
  Props.PropWrap Props.PropWcsGrid Props.PropResample Props.PropPsf Props.PropSeWcs Props.PropEpoch.
Import ListNotations.
Open Scope list_scope.
Open Scope Z_scope.

Lemma each_inv {A B} (f : A -> result B) l bs : each f l = Ok bs -> Forall2 (fun a b => f a = Ok b) l bs.
Proof.
  revert bs. induction l as [|a l IH]; intros bs H; cbn [each] in H; [apply Ok_inj in H as <-; constructor|].
  apply bind_ok in H as (b & Hb & H). apply bind_ok in H as (bs' & Hbs & H). apply Ok_inj in H as <-.
  constructor; auto.
Qed.

Lemma each_total {A B} (f : A -> result B) l : (forall a, exists b, f a = Ok b) -> exists bs, each f l = Ok bs.
Proof.
  intros H. induction l as [|a l (bs & IH)]; [exists []; reflexivity|]. cbn [each].
  destruct (H a) as (b & ->). rewrite IH. cbn [bind]. eauto.
Qed.

Lemma wrap_one_turn fuel x : (1 <= fuel)%nat -> (Rabs x <= 360)%R -> exists y, wrap_ra_diff fuel x = Some y.
Proof.
  intros Hf Hx. unfold wrap_ra_diff. cbn [ffinite ROps negb]. destruct fuel as [|fuel]; [lia|].
  assert (Hx' : (- 360 <= x <= 360)%R) by (unfold Rabs in Hx; destruct (Rcase_abs x); lra).
  cbn [while_loop fltb fofZ fadd fsub ROps]. unfold Rltb.
  assert (Hup : forall z n, (-180 <= z <= 360)%R -> exists y,
    while_loop (fun x : R => if Rlt_dec 180 x then true else false) (fun x : R => (x - 360)%R) (S n) z = Some y).
  { intros z n Hz. cbn [while_loop]. destruct (Rlt_dec 180 z); [|eauto].
    destruct n; cbn [while_loop]; destruct (Rlt_dec 180 (z - 360)); try lra; eauto. }
  destruct (Rlt_dec x (-180)).
  - assert (E : while_loop (fun x : R => if Rlt_dec x (-180) then true else false) (fun x : R => (x + 360)%R) fuel
                  (x + 360)%R = Some (x + 360)%R).
    { destruct fuel; cbn [while_loop]; destruct (Rlt_dec (x + 360) (-180)); try lra; reflexivity. }
    rewrite E. apply Hup. lra.
  - apply Hup. lra.
Qed.

(** The place of a slice, exact arithmetic. *)
Lemma nth_flat {A B C} (f : A -> B -> C) (l0 : list A) (l : list B) k p :
  nth_error (flat_map (fun a => map (f a) l) l0) k = Some p ->
  exists a b x y, nth_error l0 a = Some x /\ nth_error l b = Some y /\ p = f x y /\ k = (a * length l + b)%nat.
Proof.
  revert k. induction l0 as [|x l0 IH]; intros k H; [destruct k; discriminate|].
  cbn [flat_map] in H. destruct (Nat.lt_ge_cases k (length l)) as [Hk|Hk].
  - rewrite nth_error_app1 in H by (rewrite map_length; exact Hk). rewrite nth_error_map in H.
    destruct (nth_error l k) as [y|] eqn:E; [|discriminate]. injection H as <-.
    exists 0%nat, k, x, y. auto.
  - rewrite nth_error_app2 in H by (rewrite map_length; exact Hk). rewrite map_length in H.
    destruct (IH _ H) as (a & b & u & v & E1 & E2 & E3 & E4). exists (S a), b, u, v. repeat split; auto. lia.
Qed.

Lemma zip4_map {A} (f g h i : A -> R) (l : list A) :
  zip4 (map f l) (map g l) (map h l) (map i l) = map (fun a => (f a, g a, h a, i a)) l.
Proof. induction l; cbn; congruence. Qed.

Lemma fill_nth i2s jac bs pbs bf co pc off : forall locs idx (objs : list object),
  fill_objects (F := R) i2s jac idx bs pbs bf co pc off locs = Ok objs ->
  forall k ob, nth_error objs k = Some ob -> exists row col sr sc,
    nth_error locs k = Some (row, col, sr, sc) /\ ob_orig_start_row ob = sr /\ ob_orig_start_col ob = sc /\
    i2s (col + IZR off)%R (row + IZR off)%R = Ok (ob_ra ob, ob_dec ob).
Proof.
  induction locs as [|[[[row col] sr] sc] locs IH]; intros idx objs H k ob Hk; cbn [fill_objects] in H.
  - apply Ok_inj in H as <-. destruct k; discriminate.
  - apply bind_ok in H as ([ra dec] & E & H). apply bind_ok in H as ([[[j0 j1] j2] j3] & _ & H).
    apply bind_ok in H as (rest & Hr & H). apply Ok_inj in H as <-. destruct k as [|k]; cbn [nth_error] in *.
    + injection Hk as <-. exists row, col, sr, sc. cbn. auto.
    + exact (IH _ _ Hr k ob Hk).
Qed.

Lemma slice_place i2s jac central buffer width psf_box offset (objs : list (object (F := R))) :
  0 < central ->
  build_object_data i2s jac central buffer width psf_box offset = Ok objs ->
  exists n, width - 2 * buffer = n * central /\
  forall k ob, nth_error objs k = Some ob -> exists a b, 0 <= a < n /\ 0 <= b < n /\ Z.of_nat k = a * n + b /\
    ob_orig_start_row ob = IZR (a * central) /\ ob_orig_start_col ob = IZR (b * central) /\
    i2s (IZR (b * central) + (IZR (central + 2 * buffer) - 1) / 2 + IZR offset)%R
        (IZR (a * central) + (IZR (central + 2 * buffer) - 1) / 2 + IZR offset)%R = Ok (ob_ra ob, ob_dec ob).
Proof.
  intros Hc H. unfold build_object_data in H. apply bind_ok in H as ([[[rows cols] sr] scs] & HL & H).
  cbv zeta in H. unfold build_slice_locations in HL.
  destruct (Z.eqb_spec central 0) as [|_]; [lia|]. cbn [ftrunc feqb fofZ fdiv ROps] in HL.
  set (q := (IZR (width - 2 * buffer) / IZR central)%R) in HL.
  destruct (negb (Reqb (IZR (Ztrunc q)) q)) eqn:Eq; [discriminate|]. cbv zeta in HL.
  apply negb_false_iff in Eq. unfold Reqb in Eq. destruct (Req_EM_T (IZR (Ztrunc q)) q) as [Eq'|]; [|discriminate].
  set (n := Ztrunc q) in *. exists n.
  assert (Hc' : (0 < IZR central)%R) by (apply IZR_lt; exact Hc).
  split. { apply eq_IZR. rewrite mult_IZR, Eq'. unfold q. field. lra. }
  apply Ok_inj in HL. inversion HL as [[E1 E2 E3 E4]]. clear HL.
  set (loc := map (fun k => (IZR (k * central + buffer) + IZR (central - 1) / 2)%R) (zrange 0 n)) in *.
  assert (ER : flat_map (fun l : R => map (fun _ => l) loc) loc
               = map fst (flat_map (fun l : R => map (pair l) loc) loc)).
  { generalize loc at 2 4. intros l0. induction l0 as [|a l0 IH]; [reflexivity|]. cbn [flat_map].
    rewrite map_app, IH, map_map. reflexivity. }
  assert (EC : flat_map (fun _ : R => loc) loc = map snd (flat_map (fun l : R => map (pair l) loc) loc)).
  { generalize loc at 2 4. intros l0. induction l0 as [|a l0 IH]; [reflexivity|]. cbn [flat_map].
    rewrite map_app, IH, map_map. cbn [snd]. now rewrite map_id. }
  cbn [fadd fsub fofZ ROps] in E1, E2, E3, E4. fold loc in E1, E2, E3, E4.
  rewrite ER in E1, E3. rewrite EC in E2, E4. rewrite map_map in E3, E4. subst rows cols sr scs.
  rewrite zip4_map in H. intros k ob Hk.
  destruct (fill_nth _ _ _ _ _ _ _ _ _ _ _ H k ob Hk) as (row & col & sr & sc & Ek & Esr & Esc & Es).
  rewrite nth_error_map in Ek.
  destruct (nth_error (flat_map (fun l : R => map (pair l) loc) loc) k) as [[u v]|] eqn:Ep; [|discriminate].
  cbn [option_map fst snd] in Ek. injection Ek as <- <- <- <-.
  apply nth_flat in Ep as (a & b & u' & v' & Ea & Eb & Euv & Ekk). injection Euv as -> ->.
  unfold loc in Ea, Eb. rewrite nth_error_map in Ea, Eb.
  destruct (nth_error (zrange 0 n) a) as [za|] eqn:Za; [|discriminate].
  destruct (nth_error (zrange 0 n) b) as [zb|] eqn:Zb; [|discriminate].
  cbn [option_map] in Ea, Eb. injection Ea as <-. injection Eb as <-.
  assert (Hz : forall j z, nth_error (zrange 0 n) j = Some z -> z = Z.of_nat j /\ 0 <= z < n).
  { intros j z Hj. pose proof (nth_error_In _ _ Hj) as Hin. apply In_zrange in Hin.
    split; [|lia]. unfold zrange in Hj. rewrite nth_error_map in Hj.
    destruct (nth_error (seq 0 _) j) as [m|] eqn:Em; [|discriminate]. injection Hj as <-.
    assert (Lj : (j < Z.to_nat (n - 0))%nat).
    { rewrite <- (seq_length (Z.to_nat (n - 0)) 0). apply nth_error_Some. rewrite Em. discriminate. }
    rewrite (nth_error_nth' _ 0%nat) in Em by (rewrite seq_length; exact Lj). rewrite seq_nth in Em by exact Lj.
    injection Em as <-. lia. }
  destruct (Hz _ _ Za) as (Za1 & Za2). destruct (Hz _ _ Zb) as (Zb1 & Zb2).
  assert (Ll : Z.of_nat (length loc) = n).
  { unfold loc. rewrite map_length. unfold zrange. rewrite map_length, seq_length. lia. }
  exists za, zb. split; [exact Za2|]. split; [exact Zb2|]. split; [nia|].
  split. { rewrite Esr. rewrite plus_IZR. ring. }
  split. { rewrite Esc. rewrite plus_IZR. ring. }
  rewrite <- Es. f_equal; rewrite !plus_IZR, !mult_IZR, minus_IZR; field.
Qed.

Section Generic.
Context {F : Type} {FO : FloatOps F} {P : Type}.
Variable t : tile F P.
Notation w := (t_world t).
Notation op := (t_options t).

(** The object that is found for a slice is the one the slice was cut out with. *)
Lemma seeded_entry l seeds e' : In e' (seeded l seeds) ->
  exists e, In e l /\ e_image_id e = e_image_id e' /\ make_object w op e = make_object w op e'.
Proof.
  revert seeds. induction l as [|e l IH]; intros seeds H; [destruct H|].
  destruct seeds as [|[ns ms] seeds]; [destruct H|]. cbn [seeded] in H. destruct H as [<-|H].
  - exists e. split; [now left|]. split; reflexivity.
  - destruct (IH seeds H) as (e0 & I & E). exists e0. split; [now right|exact E].
Qed.

Lemma seeded_given (l : list (entry F P)) seeds e : In e (seeded l seeds) <->
  exists k e0 ns ms, nth_error l k = Some e0 /\ nth_error seeds k = Some (ns, ms) /\
    e = mkentry (e_image_id e0) (e_image_flags e0) (e_offset e0) (e_info e0) (e_pixels e0) (e_bmask e0) ns ms.
Proof.
  revert seeds. induction l as [|e1 l IH]; intros seeds.
  - split; [intros []|]. intros (k & e0 & ns & ms & H & _). destruct k; discriminate.
  - destruct seeds as [|[ns1 ms1] seeds].
    { split; [intros []|]. intros (k & e0 & ns & ms & _ & H & _). destruct k; discriminate. }
    cbn [seeded In]. rewrite IH. split.
    + intros [<-|(k & e0 & ns & ms & H1 & H2 & H3)]; [exists 0%nat|exists (S k)]; repeat eexists; eauto.
    + intros ([|k] & e0 & ns & ms & H1 & H2 & H3); cbn in H1, H2.
      * injection H1 as <-. injection H2 as <- <-. left. now symmetry.
      * right. eauto 8.
Qed.

Lemma find_object_entry seeds e : NoDup (map e_image_id (t_entries t)) -> In e (seeded (t_entries t) seeds) ->
  find_object t (e_image_id e) = make_object w op e.
Proof.
  intros Hn Hin. apply seeded_entry in Hin as (e0 & I & Eid & <-). rewrite <- Eid. unfold find_object.
  assert (EF : find (fun e1 => e_image_id e1 =? e_image_id e0) (t_entries t) = Some e0); [|now rewrite EF].
  clear Eid. revert Hn I. generalize (t_entries t) as l. induction l as [|a l IH]; intros Hn I; [destruct I|].
  cbn [map] in Hn. inversion Hn as [|? ? Ha Hn']; subst. cbn [find]. destruct I as [->|I]; [now rewrite Z.eqb_refl|].
  destruct (Z.eqb_spec (e_image_id a) (e_image_id e0)) as [E|_]; [|auto].
  exfalso. apply Ha. rewrite E. now apply in_map.
Qed.

(** What the sources of a slice are. *)
Lemma answers_slice ra dec rp dp box e s : src_slice (answers w op ra dec rp dp box e) = Ok s ->
  examine w op ra dec rp dp box e = Ok (Some (s, src_psf_flag (answers w op ra dec rp dp box e))).
Proof.
  unfold answers. destruct (examine w op ra dec rp dp box e) as [[[s' flag]|]|x]; cbn; congruence.
Qed.

Lemma image_of_unique e W m shape W' m' shape' :
  image_of w op e W m shape -> image_of w op e W' m' shape' -> W' = W /\ m' = m /\ shape' = shape.
Proof.
  intros (B1 & B2 & B3) (A1 & A2 & A3).
  split; [eapply choose_wcs_det; eassumption|]. split; [eapply choose_psf_det; eassumption|].
  eapply get_shape_det; eassumption.
Qed.

End Generic.

Section W.
Context {P : Type}.
Variable t : tile R P.
Notation w := (t_world t).
Notation op := (t_options t).

(** Areas. *)
Lemma pixel_area_inv i2s cel x y a : pixel_area t i2s cel x y = Ok (Some a) -> area_at t i2s cel x y a.
Proof.
  unfold pixel_area. intros H.
  apply bind_ok in H as ([r0 d0] & E0 & H). apply bind_ok in H as ([r1 d1] & E1 & H).
  apply bind_ok in H as ([r2 d2] & E2 & H). apply bind_ok in H as ([r3 d3] & E3 & H).
  apply bind_ok in H as ([r4 d4] & E4 & H). apply Ok_inj in H.
  cbn [fadd fsub ROps] in *. change (@fone R ROps) with 1%R in *.
  unfold compute_wcs_area, known in H. cbn [fadd fsub ROps] in H. rewrite E0, E1, E2, E3, E4 in H.
  exists r0, d0, r1, d1, r2, d2, r3, d3, r4, d4. repeat (split; [assumption|]).
  destruct cel.
  - destruct (wrap_ra_diff _ (r1 - r2)%R) as [dx|] eqn:Ex; [|discriminate].
    destruct (wrap_ra_diff _ (r3 - r4)%R) as [dy|] eqn:Ey; [|discriminate].
    exists dx, dy. split; [exact (proj2 (C15_wrapped_exact_arithmetic _) _ _ Ex)|].
    split; [exact (proj2 (C15_wrapped_exact_arithmetic _) _ _ Ey)|].
    injection H as <-. cbn [fabs fsub fmul fdiv fofZ ROps]. rewrite <- Rabs_Ropp. f_equal.
    unfold fhalf, fdec. cbn [fdiv fofZ ROps]. field.
  - injection H as <-. cbn [fabs fsub fmul fdiv fofZ ROps]. f_equal.
    unfold fhalf, fdec. cbn [fdiv fofZ ROps]. field.
Qed.

Lemma pixel_area_total i2s cel x y : (forall x y, exists p, i2s x y = Ok p) -> in_one_turn t i2s cel ->
  exists a, pixel_area t i2s cel x y = Ok (Some a).
Proof.
  intros Hi Ht. unfold pixel_area.
  destruct (Hi x y) as ([r0 d0] & E0). rewrite E0. cbn [bind fadd fsub ROps].
  change (@fone R ROps) with 1%R.
  destruct (Hi (x + 1)%R y) as ([r1 d1] & E1). rewrite E1. cbn [bind].
  destruct (Hi (x - 1)%R y) as ([r2 d2] & E2). rewrite E2. cbn [bind].
  destruct (Hi x (y + 1)%R) as ([r3 d3] & E3). rewrite E3. cbn [bind].
  destruct (Hi x (y - 1)%R) as ([r4 d4] & E4). rewrite E4. cbn [bind].
  unfold compute_wcs_area, known. cbn [fadd fsub ROps]. rewrite E0, E1, E2, E3, E4.
  destruct cel; [|eauto]. destruct (Ht eq_refl) as (Hf & Hr).
  destruct (wrap_one_turn _ (r1 - r2)%R Hf (Hr _ _ _ _ _ _ _ _ E1 E2)) as (dx & ->).
  destruct (wrap_one_turn _ (r3 - r4)%R Hf (Hr _ _ _ _ _ _ _ _ E3 E4)) as (dy & ->). eauto.
Qed.

Lemma area_table_inv i2s cel shape delta off g : 0 < delta -> 0 <= fst shape -> 0 <= snd shape ->
  Whole.area_table t i2s cel shape delta off = Ok g -> area_table_of t i2s cel shape delta off g.
Proof.
  intros Hd Hy Hx H. unfold Whole.area_table in H. apply bind_ok in H as (pos & Hp & H).
  apply bind_ok in H as (as_ & Ha & H).
  destruct (get_wcs_area_interp _ _ _ _) as [r|] eqn:E; [|discriminate]. subst r.
  destruct shape as [dy dx]. cbn [fst snd] in *.
  destruct (WcsGridProofs.area_table _ _ _ _ _ _ Hd Hy Hx E) as (Ex & Ey & _ & _ & Hv).
  destruct (mgrid_spec _ _ _ Hd Hx Ex) as (Nx & Ix & _).
  destruct (mgrid_spec _ _ _ Hd Hy Ey) as (Ny & Iy & _).
  split; [exact Nx|]. split; [exact Ny|]. split; [exact Ix|]. split; [exact Iy|].
  intros i j a b Ai Bj. specialize (Hv _ _ _ _ Ai Bj). cbn [fadd fsub fofZ ROps] in Hv.
  change (@fhalf R ROps) with (1 / 2)%R in Hv. apply pixel_area_inv.
  destruct (pixel_area _ _ _ _ _) as [o|]; [|discriminate]. now rewrite Hv.
Qed.

Lemma area_table_total i2s cel shape delta off : 0 < delta ->
  2 * delta < fst shape -> 2 * delta < snd shape ->
  (forall x y, exists p, i2s x y = Ok p) -> in_one_turn t i2s cel ->
  exists g, Whole.area_table t i2s cel shape delta off = Ok g.
Proof.
  intros Hd Hy Hx Hi Ht. unfold Whole.area_table. destruct shape as [dy dx]. cbn [fst snd] in *.
  assert (Ep : exists pos, se_positions (F := R) dy dx delta = Ok pos).
  { unfold se_positions. destruct (mgrid_ok dy delta Hd ltac:(lia)) as (n & -> & _).
    destruct (mgrid_ok dx delta Hd ltac:(lia)) as (m & -> & _). cbn [bind]. eauto. }
  destruct Ep as (pos & ->). cbn [bind].
  destruct (each_total (fun p => pixel_area t i2s cel (fadd (snd p) off) (fadd (fst p) off)) pos) as (as_ & ->).
  { intros p. destruct (pixel_area_total i2s cel (fadd (snd p) off) (fadd (fst p) off) Hi Ht) as (a & Ea). eauto. }
  cbn [bind].
  destruct (proj1 (area_interp_outcome
    (fun x y => match pixel_area t i2s cel x y with Ok a => a | Raise _ => None end) dy dx delta off
    Hd ltac:(lia) ltac:(lia)
    ltac:(intros x y; destruct (pixel_area_total i2s cel x y Hi Ht) as (a & ->); eauto)) (conj Hy Hx)) as (g & ->).
  eauto.
Qed.

(** Positions. *)
Lemma image2sky1_sky_of e W x y :
  image2sky1 (mksw W (IZR (e_offset e)) (op_color op)) x y = sky_of t e W x y.
Proof. rewrite image2sky1_own. reflexivity. Qed.

Lemma wcs_tables_inv e W o inv fwd : so_wcs o = mksw W (IZR (e_offset e)) (op_color op) ->
  0 < t_se_delta t -> 0 <= fst (so_shape o) -> 0 <= snd (so_shape o) ->
  wcs_tables t o = Ok (inv, fwd) -> position_table t e W (so_shape o) inv.
Proof.
  intros Ew Hd Hy Hx H. unfold wcs_tables in H.
  apply bind_ok in H as (pos & Hp & H). apply bind_ok in H as (sky & Hs & H).
  apply bind_ok in H as (cs & Hc & H). apply each_inv in Hs, Hc.
  destruct (so_shape o) as [dy dx] eqn:Esh. cbn [fst snd] in *.
  destruct (C56_positions _ _ _ _ _ _ _ _ Hd Hy Hx H) as (Hnd & Hin).
  pose proof (C56_entries _ _ _ _ _ _ _ _ _ H) as (_ & Hent).
  destruct (inverse_shape _ _ _ _ _ _ _ _ H) as (ys & xs & Ey & Ex & Ei & Ef).
  assert (Epos : inv_pts fwd = pos).
  { rewrite Ef. unfold se_positions in Hp. rewrite Ey, Ex in Hp. cbn [bind] in Hp. apply Ok_inj in Hp as <-. reflexivity. }
  rewrite Epos in *. exists (map (fun p => (snd p, fst p)) pos).
  split. { apply FinFun.Injective_map_NoDup; [|exact Hnd]. intros [a b] [a' b']. cbn. congruence. }
  split.
  { intros x y. unfold grid_node. cbn [fst snd]. rewrite <- Hin, in_map_iff. split.
    - intros ([a b] & E & I). cbn in E. now injection E as -> ->.
    - intros I. exists (y, x). auto. }
  unfold get_wcs_inverse in H. cbn [fst snd] in H. rewrite Hp in H. cbn [bind] in H. apply Ok_inj in H.
  apply pair_equal_spec in H as [H _]. unfold inversion_init in H. subst inv. cbn [inv_x inv_y inv_pts].
  rewrite !map_map. split; [reflexivity|]. split; [reflexivity|].
  clear - Hs Hc Ew. revert cs Hc. induction Hs as [|p s ps ss Hps _ IH]; intros cs Hc; [constructor|].
  inversion Hc as [|? c ? cs' Hcs Hc']; subst. cbn [map combine]. constructor; [|eapply IH; eassumption].
  unfold known. rewrite Hps, Hcs. destruct s as [ra dec], c as [xc yc]. cbn [fst snd] in *.
  exists ra, dec, xc, yc. rewrite Ew, image2sky1_sky_of in Hps. split; [exact Hps|]. split; [exact Hcs|]. reflexivity.
Qed.

Lemma wcs_tables_fwd e W o inv fwd : so_wcs o = mksw W (IZR (e_offset e)) (op_color op) ->
  0 < t_se_delta t -> 0 <= fst (so_shape o) -> 0 <= snd (so_shape o) ->
  wcs_tables t o = Ok (inv, fwd) -> coadd_table t e W (so_shape o) fwd.
Proof.
  intros Ew Hd Hy Hx H. unfold wcs_tables in H.
  apply bind_ok in H as (pos & Hp & H). apply bind_ok in H as (sky & Hs & H).
  apply bind_ok in H as (cs & Hc & H). apply each_inv in Hs, Hc.
  destruct (so_shape o) as [dy dx] eqn:Esh. cbn [fst snd] in *.
  destruct (C56_positions _ _ _ _ _ _ _ _ Hd Hy Hx H) as (Hnd & Hin).
  destruct (inverse_shape _ _ _ _ _ _ _ _ H) as (ys & xs & Ey & Ex & Ei & Ef).
  assert (Epos : inv_pts fwd = pos).
  { rewrite Ef. unfold se_positions in Hp. rewrite Ey, Ex in Hp. cbn [bind] in Hp. apply Ok_inj in Hp as <-. reflexivity. }
  rewrite Epos in *.
  exists (map (fun p => (snd p, fst p)) pos), (combine (inv_x fwd) (inv_y fwd)).
  split. { apply FinFun.Injective_map_NoDup; [|exact Hnd]. intros [a b] [a' b']. cbn. congruence. }
  split.
  { intros x y. unfold grid_node. cbn [fst snd]. rewrite <- Hin, in_map_iff. split.
    - intros ([a b] & E & I). cbn in E. now injection E as -> ->.
    - intros I. exists (y, x). auto. }
  split. { rewrite Epos, map_map. cbn [fst snd]. rewrite <- (map_id pos) at 1. apply map_ext. now intros [a b]. }
  unfold get_wcs_inverse in H. cbn [fst snd] in H. rewrite Hp in H. cbn [bind] in H. apply Ok_inj in H.
  apply pair_equal_spec in H as [_ H]. unfold inversion_init in H. subst fwd. cbn [inv_x inv_y inv_pts] in *.
  rewrite !map_map, combine_map2, !map_map. cbn [fst snd].
  split; [reflexivity|]. split; [reflexivity|].
  clear - Hs Hc Ew. revert cs Hc. induction Hs as [|p s ps ss Hps _ IH]; intros cs Hc; [constructor|].
  inversion Hc as [|? c ? cs' Hcs Hc']; subst. cbn [map combine]. constructor; [|eapply IH; eassumption].
  unfold known. rewrite Hps, Hcs. destruct s as [ra dec], c as [xc yc]. cbn [fst snd] in *.
  exists ra, dec, xc, yc. rewrite Ew, image2sky1_sky_of in Hps. split; [exact Hps|]. split; [exact Hcs|]. reflexivity.
Qed.

Lemma wcs_tables_total o : 0 < t_se_delta t -> 0 <= fst (so_shape o) -> 0 <= snd (so_shape o) ->
  (forall x y, exists p, image2sky1 (so_wcs o) x y = Ok p) ->
  (forall ra dec, exists p, cw_sky2image (t_coadd t) ra dec = Ok p) ->
  exists inv fwd, wcs_tables t o = Ok (inv, fwd).
Proof.
  intros Hd Hy Hx Hi Hc. unfold wcs_tables. destruct (so_shape o) as [dy dx]. cbn [fst snd] in *.
  assert (Ep : exists pos, se_positions (F := R) dy dx (t_se_delta t) = Ok pos).
  { unfold se_positions. destruct (mgrid_ok dy (t_se_delta t) Hd ltac:(lia)) as (n & -> & _).
    destruct (mgrid_ok dx (t_se_delta t) Hd ltac:(lia)) as (m & -> & _). cbn [bind]. eauto. }
  destruct Ep as (pos & ->). cbn [bind].
  destruct (each_total (fun p => image2sky1 (so_wcs o) (snd p) (fst p)) pos) as (sky & ->); [intros; apply Hi|].
  cbn [bind].
  destruct (each_total (fun s => cw_sky2image (t_coadd t) (fst s) (snd s)) sky) as (cs & ->); [intros; apply Hc|].
  cbn [bind].
  destruct (inverse_total (known (cw_sky2image (t_coadd t))) (known (image2sky1 (so_wcs o))) (fofZ (t_offset t))
              dy dx (t_se_delta t) Hd Hy Hx) as ([inv fwd] & ->). eauto.
Qed.

Lemma kept_shaped ra dec rp dp box e W m shape s flag : (1 <= op_frac_buffer op * IZR box)%R ->
  kept_from w op ra dec rp dp box e W m shape s flag ->
  SliceInputsSpec.shaped (SliceInputs.sl_box_size s) (SliceInputs.sl_box_size s) s /\ 1 <= SliceInputs.sl_box_size s.
Proof.
  intros Hb [_ _ B _ _ Px _ _].
  destruct Px as (pixels & bmask & bm & _ & _ & _ & (I1 & I2 & _) & (W1 & W2 & _) & (M1 & M2 & _) & N).
  pose proof (box_positive op box _ Hb B) as Hp. unfold SliceInputsSpec.shaped, shape_is. split; [|lia].
  repeat (split; [first [assumption|split; assumption|lia]|]).
  clear -N. induction N as [|a b l l' (nse & _ & N1 & N2 & _) N IH]; constructor; [split; assumption|exact IH].
Qed.

(** All of [resampled_from] from the theorems on resampling. *)
Lemma resample_from to_se area_se area_coadd u y0 x0 n py0 px0 pn o :
  let s := u_slice u in
  1 <= SliceInputs.sl_box_size s ->
  nrows (SliceInputs.sl_bmask s) = SliceInputs.sl_box_size s ->
  ncols (SliceInputs.sl_bmask s) = SliceInputs.sl_box_size s ->
  resample to_se area_se area_coadd (used_state u) x0 y0 n px0 py0 pn = Ok o ->
  resampled_from to_se area_se area_coadd y0 x0 n py0 px0 pn u
    (mkres (ro_image o) (ro_noises o) (ro_interp_frac o) (ro_psf o) (ro_bmask o) (ro_pmask o)).
Proof.
  intros s Hb Br Bc H. unfold used_state, state_of in H.
  match type of H with resample _ _ _ ?st _ _ _ _ _ _ = _ => set (S := st) in H end.
  pose proof (C63_same_kernel_for_all_images to_se area_se area_coadd S _ _ x0 y0 n px0 py0 pn o H eq_refl eq_refl)
    as (K1 & K2 & _ & K4).
  destruct (resample_spec to_se area_se area_coadd S y0 x0 n py0 px0 pn o H)
    as (sl & pf & it & Es & Ep & Ei & Hpsf & _ & _ & _ & _ & K).
  injection Es as Es. injection Ei as Ei.
  cbv zeta in K. destruct K as (_ & _ & _ & _ & (L1 & L2 & _) & pm & _ & L3 & L4 & _).
  constructor; cbn [rs_image rs_noises rs_interp_frac rs_psf rs_bmask rs_pmask].
  - exact K1.
  - exact K2.
  - exact K4.
  - destruct (C54_resampled_psf to_se area_se area_coadd S pf px0 py0 pn fzero fzero _ Ep Hpsf)
      as (raw & N & S1 & S2 & _ & Q). injection Ep as Ep. subst pf.
    exists raw. split; [|exact N]. destruct N as (N1 & N2 & _).
    split; [congruence|]. split; [congruence|]. intros r c Hr Hc row col.
    destruct (Q r c Hr Hc) as (v & V1 & V2). exists v. split; [exact V1|].
    change (@fzero R ROps) with 0%R in V2. rewrite !Rplus_0_r in V2. exact V2.
  - split; [exact L1|]. split; [exact L2|]. split; [exact L3|]. split; [exact L4|].
    intros r c i j Hr Hc row col V U Ti Tj.
    destruct (C41_masks_for_all_positions to_se area_se area_coadd S _ _ x0 y0 n px0 py0 pn o r c i j
                H eq_refl eq_refl Hr Hc V U Ti Tj) as (M1 & v & M2 & M3).
    destruct (C63_edge_pixels_are_zero to_se area_se area_coadd S _ x0 y0 n px0 py0 pn o r c
                H eq_refl Hb Hr Hc) as (E & _).
    cbn [SeImage.sl_bmask SeImage.sl_box_size SeImage.sl_y_start SeImage.sl_x_start it_pmask] in M1, M2, E.
    fold s in M1, M2, E. rewrite Br, Bc in M1, M2. fold s. split; [exact M1|]. exists v. split; [exact M2|].
    change (fst (position to_se y0 x0 (SliceInputs.sl_y_start s) (SliceInputs.sl_x_start s) r c)) with row in E.
    change (snd (position to_se y0 x0 (SliceInputs.sl_y_start s) (SliceInputs.sl_x_start s) r c)) with col in E.
    destruct (px (ro_edge o) r c); rewrite M3; (split; [|]).
    + intros (k & l & Hk & Hl & Wk & Wl). exfalso. apply (proj1 E eq_refl k l Hk Hl). auto.
    + reflexivity.
    + reflexivity.
    + intros N. exfalso. enough (false = true) by discriminate. apply E. intros k l Hk Hl [Wk Wl].
      apply N. exists k, l. auto.
Qed.

Lemma start_R (v : R) : start v = Ok (Zfloor v).
Proof. reflexivity. Qed.

Lemma kept_image_size ra dec rp dp box e W m shape s flag : (1 <= op_frac_buffer op * IZR box)%R ->
  kept_from w op ra dec rp dp box e W m shape s flag -> 1 <= fst shape /\ 1 <= snd shape.
Proof.
  intros Hb K. destruct (kept_shaped _ _ _ _ _ _ _ _ _ _ _ Hb K) as [_ Hn].
  destruct K as [_ _ _ (F1 & F2 & F3 & F4) _ _ _ _]. lia.
Qed.

Lemma resample_used_inv seeds e W m shape ra dec rp dp box s flag u row col n prow pcol pn cshape d :
  (1 <= op_frac_buffer op * IZR box)%R -> NoDup (map e_image_id (t_entries t)) ->
  0 < t_se_delta t -> 0 < t_coadd_delta t -> 0 <= fst cshape -> 0 <= snd cshape ->
  In e (seeded (t_entries t) seeds) -> image_of w op e W m shape ->
  kept_from w op ra dec rp dp box e W m shape s flag -> made_from s u ->
  resample_used t row col n prow pcol pn cshape u = Ok d ->
  seen_on_stamp t e W shape cshape (Zfloor row) (Zfloor col) n (Zfloor prow) (Zfloor pcol) pn u d.
Proof.
  intros Hb Hids Hd1 Hd2 Hc1 Hc2 Hin Him Hk Hmf H. unfold resample_used in H.
  apply bind_ok in H as (o & Ho & H). rewrite (mf_id _ _ Hmf), (kf_id _ _ _ _ _ _ _ _ _ _ _ _ _ Hk) in Ho.
  rewrite (find_object_entry t seeds e Hids Hin) in Ho.
  destruct (make_object_image _ _ _ _ Ho) as (Him' & Ew).
  destruct (image_of_unique t _ _ _ _ _ _ _ Him Him') as (E1 & E2 & E3). rewrite E1 in Ew.
  destruct (kept_image_size _ _ _ _ _ _ _ _ _ _ _ Hb Hk) as (S1 & S2).
  apply bind_ok in H as ([inv fwd] & Ht & H). apply bind_ok in H as (ga & Hga & H).
  apply bind_ok in H as (gc & Hgc & H). rewrite !start_R in H. cbn [bind] in H.
  apply bind_ok in H as (r & Hr & H). apply Ok_inj in H as <-.
  exists inv, ga, gc. rewrite <- E3 in S1, S2.
  split. { rewrite <- E3. eapply wcs_tables_inv; try eassumption; lia. }
  split.
  { rewrite <- E3. apply area_table_inv in Hga; [|lia..]. rewrite Ew in Hga. cbn [sw_wcs] in Hga.
    revert Hga. unfold area_table_of, area_at. setoid_rewrite image2sky1_sky_of. intros Hga. exact Hga. }
  split; [apply area_table_inv in Hgc; [exact Hgc|lia..]|].
  destruct (kept_shaped _ _ _ _ _ _ _ _ _ _ _ Hb Hk) as (Hsh & Hbox).
  destruct (mf_shapes _ _ Hmf _ _ Hsh) as ((_ & _ & _ & _ & (B1 & B2) & _) & _).
  rewrite <- (mf_box_size _ _ Hmf) in Hbox, B1, B2.
  exact (resample_from _ _ _ u _ _ _ _ _ _ r Hbox B1 B2 Hr).
Qed.

Lemma resample_used_total seeds e W m shape ra dec rp dp box s flag u row col n prow pcol pn cshape :
  (1 <= op_frac_buffer op * IZR box)%R -> NoDup (map e_image_id (t_entries t)) ->
  0 < t_se_delta t -> 0 < t_coadd_delta t ->
  2 * t_coadd_delta t < fst cshape -> 2 * t_coadd_delta t < snd cshape ->
  (forall ra dec, exists p, cw_sky2image (t_coadd t) ra dec = Ok p) ->
  (forall x y, exists p, cw_image2sky (t_coadd t) x y = Ok p) ->
  in_one_turn t (cw_image2sky (t_coadd t)) (cw_celestial (t_coadd t)) ->
  In e (seeded (t_entries t) seeds) -> usable w op e W m shape ->
  2 * t_se_delta t < fst shape -> 2 * t_se_delta t < snd shape ->
  in_one_turn t (sky_of t e W) (is_celestial W) ->
  kept_from w op ra dec rp dp box e W m shape s flag -> made_from s u ->
  exists d, resample_used t row col n prow pcol pn cshape u = Ok d /\
    length (rs_noises d) = length (e_noise_seeds e).
Proof.
  intros Hb Hids Hd1 Hd2 Hc1 Hc2 Hs2i Hi2s Hturn Hin Hus Hs1 Hs2 Hturn' Hk Hmf. unfold resample_used.
  rewrite (mf_id _ _ Hmf), (kf_id _ _ _ _ _ _ _ _ _ _ _ _ _ Hk), (find_object_entry t seeds e Hids Hin).
  destruct (us_image _ _ _ _ _ _ Hus) as (I1 & I2 & I3). destruct shape as [nr nc].
  destruct (C74_construction_succeeds P (w_image_wcs w) (w_head_wcs w) (w_piff w) (w_psfex w) (w_shape w)
              (w_radec_to_uv w) (w_cosdeg w) (e_info e) (op_psf op) (op_wcs op) (IZR (e_offset e)) (op_color op)
              W m nr nc I1 I2 I3 (us_rows _ _ _ _ _ _ Hus) (us_cols _ _ _ _ _ _ Hus)
              (fun x y _ => us_sky _ _ _ _ _ _ Hus _ _)) as (o & Ho & Ew & _ & Esh).
  assert (Ho' : make_object w op e = Ok o) by exact Ho. rewrite Ho'. cbn [bind].
  assert (Hsky : forall x y, exists p, image2sky1 (so_wcs o) x y = Ok p).
  { intros x y. rewrite Ew, image2sky1_own. apply (us_sky _ _ _ _ _ _ Hus). }
  cbn [fst snd] in *.
  destruct (wcs_tables_total o Hd1) as (inv & fwd & ->); [rewrite Esh; cbn; lia..|exact Hsky|exact Hs2i|].
  cbn [bind].
  destruct (area_table_total (image2sky1 (so_wcs o)) (is_celestial (sw_wcs (so_wcs o))) (so_shape o) (t_se_delta t)
              fzero Hd1) as (ga & ->); [rewrite Esh; assumption..|exact Hsky| |].
  { rewrite Ew. cbn [sw_wcs]. revert Hturn'. unfold in_one_turn. setoid_rewrite image2sky1_sky_of. auto. }
  cbn [bind].
  destruct (area_table_total (cw_image2sky (t_coadd t)) (cw_celestial (t_coadd t)) cshape (t_coadd_delta t)
              (fofZ (t_offset t)) Hd2 Hc1 Hc2 Hi2s Hturn) as (gc & ->).
  cbn [bind]. rewrite !start_R. cbn [bind].
  destruct (kept_shaped _ _ _ _ _ _ _ _ _ _ _ Hb Hk) as (Hsh & Hbox).
  destruct (mf_shapes _ _ Hmf _ _ Hsh) as ((_ & _ & Mi & _ & (B1 & B2) & Mn) & (M1 & M2) & M3 & M4).
  rewrite <- (mf_box_size _ _ Hmf) in Hbox, B1, B2, Mi, Mn, M1, M2, M3, M4.
  destruct (kf_psf _ _ _ _ _ _ _ _ _ _ _ _ _ Hk) as (_ & _ & _ & _ & _ & _ & _ & _ & P1 & P2 & _).
  rewrite <- (mf_psf _ _ Hmf), <- (mf_psf_box_size _ _ Hmf) in P1, P2.
  match goal with |- context [resample ?a ?b ?c ?st ?x0 ?y0 n ?px0 ?py0 pn] =>
    destruct (C63_resampling_succeeds R ROps a b c st _ _ _ x0 y0 n px0 py0 pn eq_refl eq_refl eq_refl Mi Mn M4 M3
                (conj P1 P2)) as (r & Hr) end.
  { cbn. lia. }
  { cbn. lia. }
  { intros r c _ _. split; eexists; reflexivity. }
  { intros r c _ _. split; eexists; reflexivity. }
  rewrite Hr. cbn [bind]. eexists. split; [reflexivity|]. cbn [rs_noises].
  apply resample_from in Hr; [|assumption..]. pose proof (rf_noises _ _ _ _ _ _ _ _ _ _ _ Hr) as Hn. cbn [rs_noises] in Hn.
  assert (L : forall A B (Q : A -> B -> Prop) l l', Forall2 Q l l' -> length l' = length l)
    by (induction 1; cbn; congruence).
  rewrite (L _ _ _ _ _ Hn), (mf_noises _ _ Hmf).
  destruct (kf_pixels _ _ _ _ _ _ _ _ _ _ _ _ _ Hk) as (pixels & bmask & bm & _ & _ & _ & _ & _ & _ & N).
  exact (L _ _ _ _ _ N).
Qed.

Lemma map_mask_shape mk row col s g : map_mask t mk row col s = Ok g ->
  shape_is (SliceInputs.sl_box_size s) (SliceInputs.sl_box_size s) g.
Proof.
  unfold map_mask. intros H. apply bind_ok in H as (o & _ & H). apply bind_ok in H as ([inv fwd] & _ & H).
  rewrite !start_R in H. cbn [bind] in H.
  match type of H with map_image_by_nearest_pixel ?z ?f ?m ?x ?y ?st = _ =>
    destruct (C42_nearest_coadd_pixel _ z f m x y st _ eq_refl) as (out & E & S1 & S2 & _) end.
  rewrite E in H. apply Ok_inj in H as <-. split; assumption.
Qed.

Lemma map_mask_inv seeds e W m shape ra dec rp dp box s flag s1 mk row col g :
  (1 <= op_frac_buffer op * IZR box)%R -> NoDup (map e_image_id (t_entries t)) -> 0 < t_se_delta t ->
  In e (seeded (t_entries t) seeds) -> image_of w op e W m shape ->
  kept_from w op ra dec rp dp box e W m shape s flag ->
  SliceInputs.sl_image_id s1 = SliceInputs.sl_image_id s ->
  map_mask t mk row col s1 = Ok g ->
  mask_on_image t e W shape (Zfloor row) (Zfloor col) (SliceInputs.sl_y_start s1) (SliceInputs.sl_x_start s1)
    (SliceInputs.sl_box_size s1) mk g.
Proof.
  intros Hb Hids Hd Hin Him Hk Eid H. unfold map_mask in H.
  apply bind_ok in H as (o & Ho & H). rewrite Eid, (kf_id _ _ _ _ _ _ _ _ _ _ _ _ _ Hk) in Ho.
  rewrite (find_object_entry t seeds e Hids Hin) in Ho.
  destruct (make_object_image _ _ _ _ Ho) as (Him' & Ew).
  destruct (image_of_unique t _ _ _ _ _ _ _ Him Him') as (E1 & E2 & E3). rewrite E1 in Ew.
  destruct (kept_image_size _ _ _ _ _ _ _ _ _ _ _ Hb Hk) as (S1 & S2).
  apply bind_ok in H as ([inv fwd] & Ht & H). rewrite !start_R in H. cbn [bind] in H.
  match type of H with map_image_by_nearest_pixel ?z ?f ?m ?x ?y ?st = _ =>
    destruct (C42_nearest_coadd_pixel _ z f m x y st _ eq_refl) as (out & E & N1 & N2 & N3) end.
  rewrite E in H. apply Ok_inj in H as <-. split; [exact N1|]. split; [exact N2|].
  exists fwd. rewrite <- E3 in S1, S2.
  split. { rewrite <- E3. eapply wcs_tables_fwd; try eassumption; lia. }
  intros r c i j Hr Hc. cbv zeta. intros P1 P2 P3 P4.
  destruct (N3 r c i j Hr Hc P1 P2 P3 P4) as [Q1 Q2].
  destruct (Z_lt_dec i 0) as [|I1]; [rewrite Q2 by (unfold inb; lia); unfold inb; split; [discriminate|lia]|].
  destruct (Z_lt_dec i (nrows mk)) as [I2|]; [|rewrite Q2 by (unfold inb; lia); unfold inb; split; [discriminate|lia]].
  destruct (Z_lt_dec j 0) as [|I3]; [rewrite Q2 by (unfold inb; lia); unfold inb; split; [discriminate|lia]|].
  destruct (Z_lt_dec j (ncols mk)) as [I4|]; [|rewrite Q2 by (unfold inb; lia); unfold inb; split; [discriminate|lia]].
  rewrite Q1 by (unfold inb; lia). unfold inb. split; [intros X; split; [lia|exact X]|tauto].
Qed.

Lemma map_mask_total seeds e W m shape mk row col s : NoDup (map e_image_id (t_entries t)) ->
  0 < t_se_delta t -> (forall ra dec, exists p, cw_sky2image (t_coadd t) ra dec = Ok p) ->
  In e (seeded (t_entries t) seeds) -> usable w op e W m shape -> SliceInputs.sl_image_id s = e_image_id e ->
  exists g, map_mask t mk row col s = Ok g.
Proof.
  intros Hids Hd Hs2i Hin Hus Eid. unfold map_mask. rewrite Eid, (find_object_entry t seeds e Hids Hin).
  destruct (us_image _ _ _ _ _ _ Hus) as (I1 & I2 & I3). destruct shape as [nr nc].
  pose proof (us_rows _ _ _ _ _ _ Hus) as R1. pose proof (us_cols _ _ _ _ _ _ Hus) as R2.
  destruct (C74_construction_succeeds P (w_image_wcs w) (w_head_wcs w) (w_piff w) (w_psfex w) (w_shape w)
              (w_radec_to_uv w) (w_cosdeg w) (e_info e) (op_psf op) (op_wcs op) (IZR (e_offset e)) (op_color op)
              W m nr nc I1 I2 I3 R1 R2
              (fun x y _ => us_sky _ _ _ _ _ _ Hus _ _)) as (o & Ho & Ew & _ & Esh).
  assert (Ho' : make_object w op e = Ok o) by exact Ho. rewrite Ho'. cbn [bind].
  cbn [fst snd] in *.
  destruct (wcs_tables_total o Hd) as (inv & fwd & ->); [rewrite Esh; cbn; lia..| |exact Hs2i|].
  { intros x y. rewrite Ew, image2sky1_own. apply (us_sky _ _ _ _ _ _ Hus). }
  cbn [bind]. rewrite !start_R. cbn [bind].
  match goal with |- context [map_image_by_nearest_pixel ?z ?f ?m ?x ?y ?st] =>
    destruct (C42_nearest_coadd_pixel _ z f m x y st _ eq_refl) as (out & E & _) end.
  eauto.
Qed.
End W.

(** The assumptions of C72. *)
Section Ext.
Context {P RNG : Type}.
Variable t : tile R P.
Variable libs : externals (F := R) (RNG := RNG).
Notation w := (t_world t).
Notation op := (t_options t).

Lemma source_kept seeds ra dec rp dp box src s :
  (1 <= op_frac_buffer op * IZR box)%R ->
  (forall e, In e (seeded (t_entries t) seeds) -> e_image_flags e = 0 -> files_agree w op e) ->
  In src (x_sources (tile_externals t libs) seeds ra dec rp dp box) -> src_slice src = Ok s ->
  exists e W m shape, In e (seeded (t_entries t) seeds) /\ image_of w op e W m shape /\
    kept_from w op ra dec rp dp box e W m shape s (src_psf_flag src).
Proof.
  intros Hb Hfa Hin Hs. cbn [tile_externals x_sources] in Hin. apply in_map_iff in Hin as (e & <- & Hin).
  apply answers_slice in Hs.
  destruct (Z.eq_dec (e_image_flags e) 0) as [E|E].
  - apply (examine_decides w op ra dec rp dp box e _ Hb (Hfa e Hin E)) in Hs.
    destruct Hs as (W & m & shape & H1 & H2). exists e, W, m, shape. auto.
  - rewrite (examine_flagged w op ra dec rp dp box e E) in Hs. discriminate.
Qed.

Lemma tile_well_behaved cw seeds box :
  (1 <= op_frac_buffer op * IZR box)%R ->
  (forall e, In e (seeded (t_entries t) seeds) -> e_image_flags e = 0 -> files_agree w op e) ->
  (forall r n x, length (fst (x_normal libs r n x)) = n) ->
  (cw = "noise-fwhm"%string -> forall psf, x_measure_fwhm libs psf <> 0%R) ->
  well_behaved (tile_externals t libs) cw seeds box.
Proof.
  intros Hb Hfa Hn Hf. constructor.
  - exact Hn.
  - intros ra dec rp dp src s Hin Hs.
    destruct (source_kept _ _ _ _ _ _ _ _ Hb Hfa Hin Hs) as (e & W & m & shape & _ & _ & K).
    destruct (kept_shaped t _ _ _ _ _ _ _ _ _ _ _ Hb K) as (Sh & _). eauto.
  - intros m row col s g nr nc Hsh (ra & dec & rp & dp & src & s0 & Hin & _ & Hs0 & _ & _ & _ & Eb & Hsame) Hg.
    destruct (source_kept _ _ _ _ _ _ _ _ Hb Hfa Hin Hs0) as (e & W & m0 & shape & _ & _ & K).
    destruct (kept_shaped t _ _ _ _ _ _ _ _ _ _ _ Hb K) as (Sh & _).
    apply Hsame in Sh. destruct Sh as (_ & _ & (A1 & A2) & _). destruct Hsh as (_ & _ & (B1 & B2) & _).
    cbn [tile_externals x_map_mask] in Hg. apply map_mask_shape in Hg. rewrite Eb in Hg.
    assert (nr = SliceInputs.sl_box_size s0) as -> by lia. assert (nc = SliceInputs.sl_box_size s0) as -> by lia.
    exact Hg.
  - exact Hf.
Qed.

Lemma usable_agree e W m shape : usable w op e W m shape -> files_agree w op e.
Proof.
  intros U W' m' shape' pixels bmask Him Ep Eb.
  destruct (image_of_unique t _ _ _ _ _ _ _ (us_image _ _ _ _ _ _ U) Him) as (_ & _ & ->).
  destruct (us_files _ _ _ _ _ _ U) as (p & b & E1 & E2 & A & B & C & D & _).
  rewrite E1 in Ep. rewrite E2 in Eb. apply Ok_inj in Ep as <-. apply Ok_inj in Eb as <-. auto.
Qed.

Lemma tile_no_trouble sc n_extra seeds box cshape :
  ready t n_extra seeds box cshape ->
  (forall ps vs, exists f, x_interpolator libs ps vs = Ok f) ->
  no_trouble (tile_externals t libs) sc n_extra seeds box cshape.
Proof.
  intros Rd Hint. destruct Rd as [Hbox Hids Himg0 Hd1 Hd2 Hc1 Hc2 Hs2i Hi2s Hturn].
  pose proof (fun e Hin => Himg0 e (proj1 (seeded_given _ _ _) Hin)) as Himg.
  assert (Hb : (1 <= op_frac_buffer op * IZR box)%R) by lra.
  assert (Hfa : forall e, In e (seeded (t_entries t) seeds) -> e_image_flags e = 0 -> files_agree w op e).
  { intros e Hin He. destruct (Himg e Hin He) as (_ & W & m & shape & U & _). exact (usable_agree _ _ _ _ U). }
  assert (Hn2 : forall n, box_of op box n -> 2 <= n).
  { intros n [_ K]. assert (T : 2 <= Ztrunc (op_frac_buffer op * IZR box)).
    { rewrite Ztrunc_floor by lra. apply Zfloor_lub. exact Hbox. }
    lia. }
  constructor.
  - exact Hs2i.
  - exact Hi2s.
  - exact Hint.
  - intros ra dec rp dp src Hin Hc. pose proof Hin as Hin0. cbn [tile_externals x_sources] in Hin.
    apply in_map_iff in Hin as (e & Ea & Hin).
    assert (Hx : exists a, examine w op ra dec rp dp box e = Ok a).
    { destruct (Z.eq_dec (e_image_flags e) 0) as [E|E]; [|exists None; now apply examine_flagged].
      destruct (Himg e Hin E) as (_ & W & m & shape & U & _).
      exact (examine_usable w op ra dec rp dp box e W m shape Hb U). }
    destruct Hx as ([[s flag]|] & Hx).
    2:{ exfalso. subst src. unfold answers in Hc. rewrite Hx in Hc. unfold candidate in Hc. cbn in Hc.
        rewrite !andb_false_r in Hc. discriminate. }
    assert (Hs : src_slice src = Ok s) by (subst src; unfold answers; rewrite Hx; reflexivity).
    destruct (source_kept _ _ _ _ _ _ _ _ Hb Hfa Hin0 Hs) as (e' & W & m & shape & _ & _ & K).
    destruct (kept_shaped t _ _ _ _ _ _ _ _ _ _ _ Hb K) as (Sh & _).
    pose proof (Hn2 _ (kf_box _ _ _ _ _ _ _ _ _ _ _ _ _ K)).
    exists s, (SliceInputs.sl_box_size s), (SliceInputs.sl_box_size s). auto 10.
  - intros mk row col s nr nc Hsh (ra & dec & rp & dp & src & s0 & Hin & Hc & Hs0 & Eid & _ & _ & Eb & Hsame).
    destruct (source_kept _ _ _ _ _ _ _ _ Hb Hfa Hin Hs0) as (e & W & m0 & shape & Hine & _ & K).
    destruct (Himg e Hine (kf_unflagged _ _ _ _ _ _ _ _ _ _ _ _ _ K)) as (_ & W' & m' & shape' & U & _).
    destruct (map_mask_total t seeds e W' m' shape' mk row col s Hids Hd1 Hs2i Hine U) as (g & Hg).
    { rewrite Eid. exact (kf_id _ _ _ _ _ _ _ _ _ _ _ _ _ K). }
    exists g. split; [exact Hg|].
    destruct (kept_shaped t _ _ _ _ _ _ _ _ _ _ _ Hb K) as (Sh & _).
    apply Hsame in Sh. destruct Sh as (_ & _ & (A1 & A2) & _). destruct Hsh as (_ & _ & (B1 & B2) & _).
    apply map_mask_shape in Hg. rewrite Eb in Hg.
    assert (nr = SliceInputs.sl_box_size s0) as -> by lia. assert (nc = SliceInputs.sl_box_size s0) as -> by lia.
    exact Hg.
  - intros row col prow pcol pbox u (ra & dec & rp & dp & src & s & Hin & Hc & Hs & Hmf).
    destruct (source_kept _ _ _ _ _ _ _ _ Hb Hfa Hin Hs) as (e & W & m0 & shape & Hine & Him & K).
    destruct (Himg e Hine (kf_unflagged _ _ _ _ _ _ _ _ _ _ _ _ _ K)) as (Ln & W' & m' & shape' & U & S1 & S2 & T).
    destruct (image_of_unique t _ _ _ _ _ _ _ Him (us_image _ _ _ _ _ _ U)) as (-> & -> & ->).
    destruct (resample_used_total t seeds e W m0 shape ra dec rp dp box s _ u row col box prow pcol pbox cshape
                Hb Hids Hd1 Hd2 Hc1 Hc2 Hs2i Hi2s Hturn Hine U S1 S2 T K Hmf) as (d & Hd & Ld).
    exists d. split; [exact Hd|]. rewrite Ld. exact Ln.
Qed.
End Ext.
