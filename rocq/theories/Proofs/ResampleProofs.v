From Coq Require Import ZArith List Bool Reals Lia Lra.
From Flocq Require Import Core.Raux.
From Verif Require Import Lib.Base Lib.Floats Model.Lanczos Model.SeImage Model.PsfImage Model.Resample
  Spec.SeImageSpec Spec.ResampleSpec Proofs.BaseFacts Proofs.LocateProofs Proofs.SliceInputsProofs
  Proofs.LanczosProofs.
Import ListNotations.
Open Scope Z_scope.

Lemma allpix_at n m r c : 0 <= r < n -> 0 <= c < m ->
  nth_error (allpix n m) (Z.to_nat (r * m + c)) = Some (r, c).
Proof.
  intros Hr Hc. assert (Hb : r * m + c < n * m).
  { assert ((r + 1) * m <= n * m) by (apply Z.mul_le_mono_nonneg_r; lia). lia. }
  assert (0 <= r * m) by (apply Z.mul_nonneg_nonneg; lia).
  rewrite allpix_nth_error.
  - rewrite Z2Nat.id by lia. f_equal. f_equal.
    + rewrite Z.div_add_l by lia. rewrite Z.div_small by lia. lia.
    + rewrite Z.add_comm, Z.mod_add by lia. apply Z.mod_small. lia.
  - rewrite <- Z2Nat.inj_mul by lia. apply Z2Nat.inj_lt; lia.
Qed.

Lemma reshape_px {A} (d : A) n m l r c v :
  nth_error l (Z.to_nat (r * m + c)) = Some v -> px (reshape d n m l) r c = v.
Proof. intros H. cbn [reshape px]. now apply nth_error_nth. Qed.

Lemma pix_lookup_map {A} (g : Z * Z -> A) l r c :
  pix_lookup (map (fun p => (p, g p)) l) r c =
  if existsb (fun p => (r =? fst p) && (c =? snd p)) l then Some (g (r, c)) else None.
Proof.
  induction l as [|[r' c'] l IH]; cbn; [reflexivity|].
  destruct ((r =? r') && (c =? c')) eqn:E; cbn [orb]; [|exact IH].
  apply andb_true_iff in E as [E1 E2]. apply Z.eqb_eq in E1, E2. now subst.
Qed.

Lemma existsb_pix l r c :
  existsb (fun p => (r =? fst p) && (c =? snd p)) l = true <-> In (r, c) l.
Proof.
  rewrite existsb_exists. split.
  - intros ([r' c'] & H & E). cbn in E. apply andb_true_iff in E as [E1 E2].
    apply Z.eqb_eq in E1, E2. now subst.
  - intros H. exists (r, c). split; [assumption|]. cbn. now rewrite !Z.eqb_refl.
Qed.

Lemma idx_assign_map {A} (a : img A) (g : Z * Z -> A) l r c :
  (In (r, c) l -> px (idx_assign a l (map g l)) r c = g (r, c)) /\
  (~ In (r, c) l -> px (idx_assign a l (map g l)) r c = px a r c).
Proof.
  unfold idx_assign. cbn [px].
  assert (E : rev (combine l (map g l)) = map (fun p => (p, g p)) (rev l)).
  { rewrite map_rev. f_equal. induction l; cbn; congruence. }
  rewrite E, pix_lookup_map.
  destruct (existsb _ (rev l)) eqn:X.
  - apply existsb_pix in X. apply in_rev in X. split; [reflexivity|tauto].
  - split; [|reflexivity]. intros H. apply in_rev in H. apply existsb_pix in H. congruence.
Qed.

Lemma combine_map2 {A B C} (f : A -> B) (g : A -> C) l :
  combine (map f l) (map g l) = map (fun a => (f a, g a)) l.
Proof. induction l; cbn; congruence. Qed.

Lemma combine_self {A B} (f : A -> B) l : combine l (map f l) = map (fun a => (a, f a)) l.
Proof. induction l; cbn; congruence. Qed.

Lemma filter_map_pair {A B} (h : A -> B) (ok : B -> bool) l :
  filter (fun q => ok (snd q)) (map (fun a => (a, h a)) l) =
  map (fun a => (a, h a)) (filter (fun a => ok (h a)) l).
Proof.
  induction l as [|a l IH]; cbn; [reflexivity|].
  destruct (ok (h a)); cbn; congruence.
Qed.

(** The selection pattern used for all nearest pixel lookups. *)
Lemma nearest_select {A} (zero : img A) (h : Z * Z -> Z * Z) (ok : Z * Z -> bool) (g : Z * Z -> A)
  n m r c : 0 <= r < n -> 0 <= c < m ->
  let sel := filter (fun q => ok (snd q)) (combine (allpix n m) (map h (allpix n m))) in
  px (idx_assign zero (map fst sel) (map (fun q => g (snd q)) sel)) r c =
  if ok (h (r, c)) then g (h (r, c)) else px zero r c.
Proof.
  intros Hr Hc. cbv zeta. rewrite combine_self, filter_map_pair, !map_map. cbn [fst snd].
  rewrite map_id.
  destruct (idx_assign_map zero (fun p => g (h p)) (filter (fun p => ok (h p)) (allpix n m)) r c) as [I1 I2].
  assert (Hi : In (r, c) (filter (fun p => ok (h p)) (allpix n m)) <-> ok (h (r, c)) = true).
  { rewrite filter_In, In_allpix. tauto. }
  destruct (ok (h (r, c))).
  - apply I1. tauto.
  - apply I2. intros H. apply Hi in H. discriminate.
Qed.

Lemma map2_length {A B C} (f : A -> B -> C) l l' : length l = length l' ->
  length (map2 f l l') = length l.
Proof. revert l'. induction l as [|a l IH]; intros [|b l']; cbn; intros H; try discriminate; auto. Qed.

Lemma map2_nth {A B C} (f : A -> B -> C) l l' i a b :
  nth_error l i = Some a -> nth_error l' i = Some b -> nth_error (map2 f l l') i = Some (f a b).
Proof.
  revert l' i. induction l as [|x l IH]; intros [|y l'] [|i]; cbn; try discriminate; auto.
  intros H1 H2. congruence.
Qed.

Section Images.
Context {F : Type} {FO : FloatOps F}.
Variables (to_se : Z -> Z -> F * F) (area_se area_coadd : Z -> Z -> F).

Lemma lanczos_loop_ext (im im' : img F) : nrows im = nrows im' -> ncols im = ncols im' ->
  (forall r c, px im r c = px im' r c) ->
  forall y x, lanczos_point im 3 y x = lanczos_point im' 3 y x.
Proof.
  intros H1 H2 H3 y x. unfold lanczos_point. destruct (ffloor x); [|reflexivity].
  destruct (ffloor y); [|reflexivity]. rewrite H1, H2. f_equal. f_equal.
  generalize (fzero : F). generalize (zrange (z0 - 3 + 1) (z0 + 3 + 1)).
  induction l as [|yp l IH]; intros v; cbn [fold_left]; [reflexivity|].
  rewrite IH. f_equal. destruct ((yp <? 0) || (yp >? nrows im' - 1)); [reflexivity|].
  revert v. generalize (zrange (z - 3 + 1) (z + 3 + 1)).
  induction l0 as [|xp l0 IH0]; intros v; cbn [fold_left]; [reflexivity|].
  rewrite IH0. f_equal. destruct ((xp <? 0) || (xp >? ncols im' - 1)); [reflexivity|].
  now rewrite H3.
Qed.

(** One resampled image, from the flat arrays of the code. *)
Lemma resampled_flat (im : img F) (n y0 x0 sy sx m : Z) (im' : img F) ys xs vs es ac :
  div_area im (mkimg m m (fun r c => area_se (c + sx) (r + sy))) = Ok im' ->
  ys = map (fun rc => fst (position to_se y0 x0 sy sx (fst rc) (snd rc))) (allpix n n) ->
  xs = map (fun rc => snd (position to_se y0 x0 sy sx (fst rc) (snd rc))) (allpix n n) ->
  ac = map (fun rc => area_coadd (snd rc + x0) (fst rc + y0)) (allpix n n) ->
  lanczos_resample im' ys xs 3 = Ok (vs, es) ->
  resampled_image to_se area_se area_coadd im (reshape fzero n n (map2 fmul vs ac))
    (reshape false n n es) y0 x0 sy sx n m.
Proof.
  intros Hd -> -> -> Hl. unfold lanczos_resample in Hl. cbn [Z.leb Z.compare Pos.compare Pos.compare_cont] in Hl.
  unfold div_area in Hd. destruct (same_shape _ _) eqn:Hs; [|discriminate]. apply Ok_inj in Hd as <-.
  apply loop_pointwise in Hl; [|now rewrite !map_length].
  destruct Hl as (L1 & L2 & Hp).
  unfold same_shape in Hs. cbn [nrows ncols] in Hs. apply andb_true_iff in Hs as [Hs1 Hs2].
  apply Z.eqb_eq in Hs1, Hs2. split; [exact Hs1|]. split; [exact Hs2|].
  split; [reflexivity|]. split; [reflexivity|].
  intros r c Hr Hc.
  pose proof (allpix_at n n r c Hr Hc) as Hn.
  destruct (Hp (Z.to_nat (r * n + c)) (fst (position to_se y0 x0 sy sx r c))
              (snd (position to_se y0 x0 sy sx r c))) as (v & e & E1 & E2 & E3).
  { rewrite nth_error_map, Hn. reflexivity. }
  { rewrite nth_error_map, Hn. reflexivity. }
  exists v. split.
  - rewrite (reshape_px false n n es r c e E2). rewrite <- E3. apply lanczos_loop_ext; reflexivity.
  - rewrite (reshape_px fzero n n _ r c (fmul v (area_coadd (c + x0) (r + y0)))); [reflexivity|].
    apply map2_nth; [exact E1|]. rewrite nth_error_map, Hn. reflexivity.
Qed.

Lemma noises_flat (n y0 x0 sy sx m : Z) ys xs ac edge : forall noises outs,
  ys = map (fun rc => fst (position to_se y0 x0 sy sx (fst rc) (snd rc))) (allpix n n) ->
  xs = map (fun rc => snd (position to_se y0 x0 sy sx (fst rc) (snd rc))) (allpix n n) ->
  ac = map (fun rc => area_coadd (snd rc + x0) (fst rc + y0)) (allpix n n) ->
  (forall im' vs es, nrows im' = m -> ncols im' = m ->
     lanczos_resample im' ys xs 3 = Ok (vs, es) -> es = edge) ->
  resample_noises (mkimg m m (fun r c => area_se (c + sx) (r + sy))) ys xs ac n noises = Ok outs ->
  Forall2 (fun im out => resampled_image to_se area_se area_coadd im out
             (reshape false n n edge) y0 x0 sy sx n m) noises outs.
Proof.
  induction noises as [|im noises IH]; intros outs Hy Hx Ha He H; cbn [resample_noises] in H.
  - apply Ok_inj in H as <-. constructor.
  - apply bind_ok in H as (im' & H1 & H). apply bind_ok in H as ([rn es] & H2 & H).
    apply bind_ok in H as (rest & H3 & H). apply Ok_inj in H as <-.
    constructor; [|apply IH; assumption].
    assert (Hs : nrows im' = m /\ ncols im' = m).
    { unfold div_area in H1. destruct (same_shape _ _) eqn:S; [|discriminate].
      apply Ok_inj in H1 as <-. unfold same_shape in S. apply andb_true_iff in S as [S1 S2].
      apply Z.eqb_eq in S1, S2. cbn in S1, S2. cbn [imap2 nrows ncols]. auto. }
    rewrite <- (He im' rn es (proj1 Hs) (proj2 Hs) H2).
    apply (resampled_flat im n y0 x0 sy sx m im' ys xs rn es ac); assumption.
Qed.

(** The edge flags depend only on the shape of the image and the positions. *)
Lemma edge_shape (im im' : img F) : forall ys xs vs es vs' es',
  nrows im = nrows im' -> ncols im = ncols im' ->
  lanczos_resample im ys xs 3 = Ok (vs, es) -> lanczos_resample im' ys xs 3 = Ok (vs', es') -> es = es'.
Proof.
  unfold lanczos_resample. cbn [Z.leb Z.compare Pos.compare Pos.compare_cont].
  induction ys as [|y ys IH]; intros [|x xs] vs es vs' es' Hr Hc H H'; cbn [lanczos_loop] in *;
    try discriminate.
  - apply Ok_inj in H, H'. apply pair_equal_spec in H as [_ <-]. apply pair_equal_spec in H' as [_ <-]. reflexivity.
  - apply Ok_inj in H, H'. apply pair_equal_spec in H as [_ <-]. apply pair_equal_spec in H' as [_ <-]. reflexivity.
  - apply bind_ok in H as ([v e] & P & H). apply bind_ok in H as ([ws fs] & Q & H).
    apply Ok_inj in H. apply pair_equal_spec in H as [<- <-].
    apply bind_ok in H' as ([v' e'] & P' & H'). apply bind_ok in H' as ([ws' fs'] & Q' & H').
    apply Ok_inj in H'. apply pair_equal_spec in H' as [<- <-].
    f_equal; [|eapply IH; eassumption].
    unfold lanczos_point in P, P'. destruct (ffloor x); [|discriminate]. destruct (ffloor y); [|discriminate].
    apply Ok_inj in P, P'. apply pair_equal_spec in P as [_ <-]. apply pair_equal_spec in P' as [_ <-].
    now rewrite Hr, Hc.
Qed.
End Images.

Lemma lookup_ok (m : img Z) nr nc n (h : Z * Z -> Z * Z) :
  let ok := fun yx : Z * Z => (fst yx >=? 0) && (fst yx <? nr) && (snd yx >=? 0) && (snd yx <? nc) in
  let all := combine (allpix n n) (map h (allpix n n)) in
  let sel := filter (fun q => ok (snd q)) all in
  let rej := filter (fun q => negb (ok (snd q))) all in
  looked_up m
    (idx_assign (idx_assign (full n n 0) (map fst sel) (map (fun q => px m (fst (snd q)) (snd (snd q))) sel))
       (map fst rej) (map (fun _ => BMASK_EDGE) rej)) nr nc n (fun r c => h (r, c)).
Proof.
  cbv zeta. split; [reflexivity|]. split; [reflexivity|]. intros r c Hr Hc.
  set (ok := fun yx : Z * Z => (fst yx >=? 0) && (fst yx <? nr) && (snd yx >=? 0) && (snd yx <? nc)).
  rewrite (nearest_select _ h (fun yx => negb (ok yx)) (fun _ => BMASK_EDGE) n n r c Hr Hc).
  rewrite (nearest_select _ h ok (fun yx => px m (fst yx) (snd yx)) n n r c Hr Hc).
  destruct (h (r, c)) as [i j] eqn:Eh.
  assert (Hok : ok (i, j) = true <-> 0 <= i < nr /\ 0 <= j < nc).
  { unfold ok. cbn [fst snd]. rewrite !andb_true_iff, !Z.ltb_lt.
    rewrite !Z.geb_le. lia. }
  destruct (ok (i, j)) eqn:Ek; cbn [negb fst snd].
  - split; [reflexivity|]. intros N. exfalso. apply N, Hok. reflexivity.
  - split; [|reflexivity]. intros Y. apply Hok in Y. discriminate.
Qed.

Section Main.
Context {F : Type} {FO : FloatOps F}.
Variables (to_se : Z -> Z -> F * F) (area_se area_coadd : Z -> Z -> F).

Lemma resample_spec st y0 x0 n py0 px0 pn o :
  resample to_se area_se area_coadd st x0 y0 n px0 py0 pn = Ok o ->
  exists sl pf it,
    st_slice st = Some sl /\ st_psf st = Some pf /\ st_interp st = Some it /\
    resample_psf to_se area_se area_coadd st px0 py0 pn fzero fzero = Ok (ro_psf o) /\
    nrows (sl_image sl) = sl_box_size sl /\ ncols (sl_image sl) = sl_box_size sl /\
    nrows (ro_edge o) = n /\ ncols (ro_edge o) = n /\
    let rs im out := resampled_image to_se area_se area_coadd im out (ro_edge o) y0 x0
                       (sl_y_start sl) (sl_x_start sl) n (sl_box_size sl) in
    rs (sl_image sl) (ro_image o) /\
    Forall2 rs (sl_noises sl) (ro_noises o) /\
    rs (it_interp_only_image it) (ro_interp_only_image o) /\
    rs (it_interp_frac it) (ro_interp_frac o) /\
    looked_up (sl_bmask sl) (ro_bmask o) (nrows (sl_bmask sl)) (ncols (sl_bmask sl)) n
      (mask_at to_se sl y0 x0) /\
    exists pm, looked_up (it_pmask it) pm (nrows (sl_bmask sl)) (ncols (sl_bmask sl)) n
      (mask_at to_se sl y0 x0) /\
      nrows (ro_pmask o) = n /\ ncols (ro_pmask o) = n /\
      forall r c, 0 <= r < n -> 0 <= c < n ->
        px (ro_pmask o) r c = if px (ro_edge o) r c then Z.lor (px pm r c) (2 ^ 26) else px pm r c.
Proof.
  unfold resample. intros H.
  destruct (st_slice st) as [sl|] eqn:Es; [|discriminate].
  destruct (st_psf st) as [pf|] eqn:Ep; [|discriminate].
  destruct (st_interp st) as [it|] eqn:Ei; [|discriminate].
  exists sl, pf, it. split; [reflexivity|]. split; [reflexivity|]. split; [reflexivity|].
  apply bind_ok in H as (psf & Hpsf & H).
  rewrite !map_map in H.
  set (ys := map (fun x => fsub (snd (to_se (snd x + x0) (fst x + y0))) (fofZ (sl_y_start sl))) (allpix n n)) in *.
  set (xs := map (fun x => fsub (fst (to_se (snd x + x0) (fst x + y0))) (fofZ (sl_x_start sl))) (allpix n n)) in *.
  set (ac := map (fun rc => area_coadd (snd rc + x0) (fst rc + y0)) (allpix n n)) in *.
  assert (Hy : ys = map (fun rc => fst (position to_se y0 x0 (sl_y_start sl) (sl_x_start sl) (fst rc) (snd rc))) (allpix n n)) by reflexivity.
  assert (Hx : xs = map (fun rc => snd (position to_se y0 x0 (sl_y_start sl) (sl_x_start sl) (fst rc) (snd rc))) (allpix n n)) by reflexivity.
  assert (Ha : ac = map (fun rc => area_coadd (snd rc + x0) (fst rc + y0)) (allpix n n)) by reflexivity.
  apply bind_ok in H as (im & Him & H). apply bind_ok in H as ([rim edge] & Hrim & H).
  apply bind_ok in H as (rns & Hrns & H). apply bind_ok in H as (iom & Hiom & H).
  apply bind_ok in H as (frac & Hfrac & H). apply bind_ok in H as ([[riom rif] e2] & Htwo & H).
  match type of H with (if negb ?b then _ else _) = _ => destruct b; [|discriminate] end. cbn [negb] in H.
  apply Ok_inj in H. rewrite <- H. clear H.
  cbn [ro_image ro_noises ro_interp_only_image ro_interp_frac ro_edge ro_psf ro_bmask ro_pmask].
  assert (Sh : forall (a a' : img F), div_area a (mkimg (sl_box_size sl) (sl_box_size sl)
             (fun r c => area_se (c + sl_x_start sl) (r + sl_y_start sl))) = Ok a' ->
             nrows a = sl_box_size sl /\ ncols a = sl_box_size sl /\
             nrows a' = sl_box_size sl /\ ncols a' = sl_box_size sl).
  { intros a a' Hd. unfold div_area in Hd. destruct (same_shape _ _) eqn:S; [|discriminate].
    apply Ok_inj in Hd as <-. unfold same_shape in S. apply andb_true_iff in S as [S1 S2].
    apply Z.eqb_eq in S1, S2. cbn in S1, S2. cbn [imap2 nrows ncols]. auto. }
  destruct (Sh _ _ Him) as (A1 & A2 & A3 & A4).
  destruct (Sh _ _ Hiom) as (B1 & B2 & B3 & B4).
  destruct (Sh _ _ Hfrac) as (C1 & C2 & C3 & C4).
  split; [exact Hpsf|]. split; [exact A1|]. split; [exact A2|]. split; [reflexivity|]. split; [reflexivity|].
  pose proof (two_eq iom frac ys xs 3 ltac:(congruence) ltac:(congruence)) as Two.
  rewrite Htwo in Two. destruct Two as [Two1 Two2].
  assert (Ee : e2 = edge).
  { apply (edge_shape iom im ys xs riom e2 rim edge); [congruence|congruence|exact Two1|exact Hrim]. }
  subst e2.
  cbv zeta. split; [|split; [|split; [|split]]].
  - apply (resampled_flat to_se area_se area_coadd (sl_image sl) n y0 x0 _ _ (sl_box_size sl) im ys xs rim edge ac);
      assumption.
  - apply (noises_flat to_se area_se area_coadd n y0 x0 _ _ (sl_box_size sl) ys xs ac edge _ _ Hy Hx Ha); [|exact Hrns].
    intros im' vs es S1 S2 Hl. apply (edge_shape im' im ys xs vs es rim edge); congruence.
  - apply (resampled_flat to_se area_se area_coadd _ n y0 x0 _ _ (sl_box_size sl) iom ys xs riom edge ac);
      assumption.
  - apply (resampled_flat to_se area_se area_coadd _ n y0 x0 _ _ (sl_box_size sl) frac ys xs rif edge ac);
      assumption.
  - rewrite combine_map2.
    split.
    + exact (lookup_ok (sl_bmask sl) (nrows (sl_bmask sl)) (ncols (sl_bmask sl)) n
               (fun rc => mask_at to_se sl y0 x0 (fst rc) (snd rc))).
    + eexists. split.
      * exact (lookup_ok (it_pmask it) (nrows (sl_bmask sl)) (ncols (sl_bmask sl)) n
               (fun rc => mask_at to_se sl y0 x0 (fst rc) (snd rc))).
      * split; [reflexivity|]. split; [reflexivity|]. intros r c Hr Hc. reflexivity.
Qed.
End Main.

Section Total.
Context {F : Type} {FO : FloatOps F}.
Variables (to_se : Z -> Z -> F * F) (area_se area_coadd : Z -> Z -> F).

Lemma div_area_ok (a : img F) m g : nrows a = m -> ncols a = m ->
  exists a', div_area a (mkimg m m g) = Ok a' /\ nrows a' = m /\ ncols a' = m.
Proof.
  intros H1 H2. unfold div_area, same_shape. cbn [nrows ncols]. rewrite H1, H2, Z.eqb_refl. cbn [andb].
  eexists. split; [reflexivity|]. cbn [imap2 nrows ncols]. auto.
Qed.

Lemma noises_total as_ m g ys xs ac n : as_ = mkimg m m g ->
  (forall im : img F, exists vs es, lanczos_resample im ys xs 3 = Ok (vs, es)) ->
  forall noises, Forall (fun im => nrows im = m /\ ncols im = m) noises ->
  exists outs, resample_noises as_ ys xs ac n noises = Ok outs.
Proof.
  intros -> Hl. induction noises as [|im noises IH]; intros H.
  - exists []. reflexivity.
  - apply Forall_cons_iff in H as [[H1 H2] H]. destruct (IH H) as (outs & E).
    destruct (div_area_ok im m g H1 H2) as (im' & Ed & _).
    destruct (Hl im') as (vs & es & El).
    cbn [resample_noises]. rewrite Ed. cbn [bind]. rewrite El. cbn [bind]. rewrite E. cbn [bind]. eauto.
Qed.

Lemma two_total (im1 im2 : img F) ys xs : nrows im1 = nrows im2 -> ncols im1 = ncols im2 ->
  (forall im : img F, exists vs es, lanczos_resample im ys xs 3 = Ok (vs, es)) ->
  exists vs1 vs2 es, lanczos_resample_two im1 im2 ys xs 3 = Ok (vs1, vs2, es).
Proof.
  intros H1 H2 Hl. pose proof (two_eq im1 im2 ys xs 3 H1 H2) as T.
  destruct (lanczos_resample_two im1 im2 ys xs 3) as [[[vs1 vs2] es]|ex]; [eauto|].
  destruct T as [T _]. destruct (Hl im1) as (vs & es & E).
  unfold lanczos_resample in E. cbn [Z.leb Z.compare Pos.compare Pos.compare_cont] in E. congruence.
Qed.

Lemma lanczos_total (f g : Z * Z -> F) n :
  (forall r c, 0 <= r < n -> 0 <= c < n ->
     (exists k, ffloor (f (r, c)) = Some k) /\ (exists k, ffloor (g (r, c)) = Some k)) ->
  forall im : img F, exists vs es, lanczos_resample im (map f (allpix n n)) (map g (allpix n n)) 3 = Ok (vs, es).
Proof.
  intros H im. unfold lanczos_resample. cbn [Z.leb Z.compare Pos.compare Pos.compare_cont].
  apply loop_total; [now rewrite !map_length|].
  intros t [Ht|Ht]; apply in_map_iff in Ht as ([r c] & <- & Hi); apply In_allpix in Hi;
    destruct (H r c (proj1 Hi) (proj2 Hi)); assumption.
Qed.

Lemma resample_psf_total st pf py0 px0 pn dx dy :
  st_psf st = Some pf -> nrows (pf_psf pf) = pf_box_size pf -> ncols (pf_psf pf) = pf_box_size pf ->
  (forall r c, 0 <= r < pn -> 0 <= c < pn ->
     (exists k, ffloor (fadd (fst (position to_se py0 px0 (pf_y_start pf) (pf_x_start pf) r c)) dy) = Some k) /\
     (exists k, ffloor (fadd (snd (position to_se py0 px0 (pf_y_start pf) (pf_x_start pf) r c)) dx) = Some k)) ->
  exists p, resample_psf to_se area_se area_coadd st px0 py0 pn dx dy = Ok p.
Proof.
  intros Hp H1 H2 Hf. unfold resample_psf. rewrite Hp, !map_map.
  destruct (div_area_ok (pf_psf pf) (pf_box_size pf)
              (fun r c => area_se (c + pf_x_start pf) (r + pf_y_start pf)) H1 H2) as (im & E & _).
  rewrite E. cbn [bind].
  match goal with |- context [lanczos_resample im (map ?f _) (map ?g _) 3] =>
    destruct (lanczos_total f g pn Hf im) as (vs & es & El) end.
  rewrite El. cbn [bind]. eauto.
Qed.

Lemma resample_total st sl pf it y0 x0 n py0 px0 pn :
  st_slice st = Some sl -> st_psf st = Some pf -> st_interp st = Some it ->
  let square (a : img F) m := nrows a = m /\ ncols a = m in
  square (sl_image sl) (sl_box_size sl) ->
  Forall (fun a => square a (sl_box_size sl)) (sl_noises sl) ->
  square (it_interp_only_image it) (sl_box_size sl) -> square (it_interp_frac it) (sl_box_size sl) ->
  square (pf_psf pf) (pf_box_size pf) ->
  nrows (sl_bmask sl) <= nrows (it_pmask it) -> ncols (sl_bmask sl) <= ncols (it_pmask it) ->
  finite_positions to_se y0 x0 (sl_y_start sl) (sl_x_start sl) n ->
  (forall r c, 0 <= r < pn -> 0 <= c < pn ->
     (exists k, ffloor (fadd (fst (position to_se py0 px0 (pf_y_start pf) (pf_x_start pf) r c)) fzero) = Some k) /\
     (exists k, ffloor (fadd (snd (position to_se py0 px0 (pf_y_start pf) (pf_x_start pf) r c)) fzero) = Some k)) ->
  exists o, resample to_se area_se area_coadd st x0 y0 n px0 py0 pn = Ok o.
Proof.
  intros Es Ep Ei sq A1 A2 A3 A4 A5 A6 A7 A8 A9. unfold resample. rewrite Es, Ep, Ei.
  destruct (resample_psf_total st pf py0 px0 pn fzero fzero Ep (proj1 A5) (proj2 A5) A9) as (p & Epsf).
  rewrite Epsf. cbn [bind]. rewrite !map_map.
  match goal with |- context [lanczos_resample _ (map ?f _) (map ?g _) 3] =>
    pose proof (lanczos_total f g n A8) as L end.
  set (g := fun r c => area_se (c + sl_x_start sl) (r + sl_y_start sl)) in *.
  destruct (div_area_ok (sl_image sl) _ g (proj1 A1) (proj2 A1)) as (im & D1 & _).
  destruct (div_area_ok (it_interp_only_image it) _ g (proj1 A3) (proj2 A3)) as (iom & D2 & S1 & S2).
  destruct (div_area_ok (it_interp_frac it) _ g (proj1 A4) (proj2 A4)) as (fr & D3 & S3 & S4).
  rewrite D1. cbn [bind]. destruct (L im) as (vs & es & E1). rewrite E1. cbn [bind].
  match goal with |- context [resample_noises ?as_ ?ys ?xs ?ac n (sl_noises sl)] =>
    destruct (noises_total as_ (sl_box_size sl) g ys xs ac n eq_refl L (sl_noises sl) A2) as (outs & E2) end.
  rewrite E2. cbn [bind]. rewrite D2. cbn [bind]. rewrite D3. cbn [bind].
  match goal with |- context [lanczos_resample_two iom fr ?ys ?xs 3] =>
    destruct (two_total iom fr ys xs ltac:(congruence) ltac:(congruence) L) as (w1 & w2 & es2 & E3) end.
  rewrite E3. cbn [bind].
  match goal with |- context [if negb ?b then _ else _] => assert (Hb : b = true) end.
  { apply forallb_forall. intros q Hq. apply filter_In in Hq as [_ Hq].
    rewrite !andb_true_iff, !Z.ltb_lt in Hq. rewrite andb_true_iff, !Z.ltb_lt. lia. }
  rewrite Hb. cbn [negb]. eauto.
Qed.

(** Which errors a missing setter gives. *)
Lemma resample_missing st y0 x0 n py0 px0 pn :
  st_slice st = None \/ st_psf st = None \/ st_interp st = None ->
  resample to_se area_se area_coadd st x0 y0 n px0 py0 pn = Raise RuntimeError.
Proof.
  unfold resample. destruct (st_slice st); destruct (st_psf st); destruct (st_interp st);
    intros [H|[H|H]]; try discriminate; reflexivity.
Qed.
End Total.

(** Over the reals. *)
Lemma unrepresentable_negative v : unrepresentable v -> int64_of v < 0.
Proof.
  destruct v as [z|]; cbn [int64_of unrepresentable]; [|lia]. intros H.
  destruct ((- 2 ^ 63 <=? z) && (z <? 2 ^ 63)) eqn:E; [lia|lia].
Qed.

Lemma int64_ok z : - 2 ^ 63 <= z < 2 ^ 63 -> int64_of (Some z) = z.
Proof.
  intros H. cbn [int64_of].
  destruct (Z.leb_spec (- 2 ^ 63) z); [|lia]. destruct (Z.ltb_spec z (2 ^ 63)); [reflexivity|lia].
Qed.

Lemma floor_half (v : R) : (IZR (Zfloor (v + 1 / 2)) - / 2 <= v < IZR (Zfloor (v + 1 / 2)) + / 2)%R.
Proof.
  pose proof (Zfloor_lb (v + 1 / 2)). pose proof (Zfloor_ub (v + 1 / 2)). lra.
Qed.

Lemma floor_int64 (v : R) : int64_position v -> - 2 ^ 63 <= Zfloor (v + 1 / 2) < 2 ^ 63.
Proof.
  intros [H1 H2]. pose proof (floor_half v) as [K1 K2]. split.
  - assert ((- 2 ^ 63) - 1 < Zfloor (v + 1 / 2)); [|lia]. apply lt_IZR. rewrite minus_IZR. lra.
  - apply lt_IZR. rewrite minus_IZR in H2. lra.
Qed.

Lemma mask_index_R (v : R) : int64_position v -> truncated v (mask_index v).
Proof.
  intros Hv. unfold mask_index, truncated.
  change (@fadd R ROps v fhalf) with (v + (1 / 2))%R.
  change (@ftrunc R ROps (v + 1 / 2)%R) with (Some (Ztrunc (v + 1 / 2))).
  pose proof (floor_int64 v Hv) as Hb. pose proof (floor_half v) as Hh.
  destruct (Rle_dec (- / 2) v) as [Hn|Hn].
  - rewrite Ztrunc_floor by lra. rewrite int64_ok by exact Hb. left. split; [exact Hn|exact Hh].
  - rewrite Ztrunc_ceil by lra.
    assert (Hc : (IZR (Zceil (v + 1 / 2)) - 3 / 2 < v <= IZR (Zceil (v + 1 / 2)) - / 2)%R).
    { pose proof (Zceil_ub (v + 1 / 2)). 
      assert (K : (IZR (Zceil (v + 1 / 2)) < v + 1 / 2 + 1)%R).
      { unfold Zceil. rewrite opp_IZR. pose proof (Zfloor_ub (- (v + 1 / 2))). lra. }
      lra. }
    rewrite int64_ok.
    + right. split; [lra|exact Hc].
    + destruct Hv as [V1 V2]. split.
      * apply le_IZR. lra.
      * assert (Zceil (v + 1 / 2) < 1); [|lia]. apply lt_IZR. lra.
Qed.

Lemma truncated_unique v i j : truncated v i -> truncated v j -> i = j.
Proof.
  intros [[A1 A2]|[A1 A2]] [[B1 B2]|[B1 B2]]; try lra.
  - assert (i < j + 1) by (apply lt_IZR; rewrite plus_IZR; lra).
    assert (j < i + 1) by (apply lt_IZR; rewrite plus_IZR; lra). lia.
  - assert (i < j + 1) by (apply lt_IZR; rewrite plus_IZR; lra).
    assert (j < i + 1) by (apply lt_IZR; rewrite plus_IZR; lra). lia.
Qed.

Lemma nearest_truncated v i : (- / 2 <= v)%R -> nearest v i -> truncated v i.
Proof. intros H1 H2. left. split; assumption. Qed.

Lemma looked_up_R (m out : img Z) nr nc n to_se (sl : slice_data (F := R)) y0 x0 r c i j :
  looked_up m out nr nc n (mask_at to_se sl y0 x0) -> 0 <= r < n -> 0 <= c < n ->
  let p := position to_se y0 x0 (sl_y_start sl) (sl_x_start sl) r c in
  int64_position (fst p) -> int64_position (snd p) ->
  truncated (fst p) i -> truncated (snd p) j ->
  mask_value m nr nc i j (px out r c).
Proof.
  intros (_ & _ & L) Hr Hc p V U Ti Tj. specialize (L r c Hr Hc).
  unfold mask_at in L. fold p in L. cbv zeta in L.
  rewrite (truncated_unique _ _ _ (mask_index_R _ V) Ti) in L.
  rewrite (truncated_unique _ _ _ (mask_index_R _ U) Tj) in L.
  exact L.
Qed.

(** map_image_by_nearest_pixel. *)
Lemma map_image_spec {F} {FO : FloatOps F} {A} (zero : A) to_coadd image x0 y0 st sl :
  st_slice st = Some sl ->
  exists out, map_image_by_nearest_pixel (F := F) zero to_coadd image x0 y0 st = Ok out /\
    nrows out = sl_box_size sl /\ ncols out = sl_box_size sl /\
    forall r c, 0 <= r < sl_box_size sl -> 0 <= c < sl_box_size sl ->
      let p := to_coadd (c + sl_x_start sl) (r + sl_y_start sl) in
      let i := int64_of (ffloor (fadd (fsub (snd p) (fofZ y0)) fhalf)) in
      let j := int64_of (ffloor (fadd (fsub (fst p) (fofZ x0)) fhalf)) in
      (0 <= i < nrows image /\ 0 <= j < ncols image -> px out r c = px image i j) /\
      (~ (0 <= i < nrows image /\ 0 <= j < ncols image) -> px out r c = zero).
Proof.
  intros E. unfold map_image_by_nearest_pixel. rewrite E. rewrite !map_map, combine_map2.
  eexists. split; [reflexivity|]. split; [reflexivity|]. split; [reflexivity|].
  intros r c Hr Hc.
  set (h := fun a : Z * Z => (int64_of (ffloor (fadd (fsub (snd (to_coadd (snd a + sl_x_start sl) (fst a + sl_y_start sl))) (fofZ y0)) fhalf)),
     int64_of (ffloor (fadd (fsub (fst (to_coadd (snd a + sl_x_start sl) (fst a + sl_y_start sl))) (fofZ x0)) fhalf)))).
  set (ok := fun yx : Z * Z => (snd yx >=? 0) && (snd yx <? ncols image) && (fst yx >=? 0) && (fst yx <? nrows image)).
  match goal with |- context [px ?a r c] => set (out := a) end.
  assert (P : px out r c = if ok (h (r, c)) then px image (fst (h (r, c))) (snd (h (r, c))) else zero)
    by exact (nearest_select (full (sl_box_size sl) (sl_box_size sl) zero) h ok
      (fun yx => px image (fst yx) (snd yx)) _ _ r c Hr Hc).
  cbv zeta. rewrite P. clear P out.
  assert (Hok : ok (h (r, c)) = true <-> 0 <= fst (h (r, c)) < nrows image /\ 0 <= snd (h (r, c)) < ncols image).
  { unfold ok. rewrite !andb_true_iff, !Z.ltb_lt, !Z.geb_le. lia. }
  unfold h in *. cbn [fst snd] in *.
  destruct (ok _); split; intros K; try reflexivity.
  - exfalso. apply K, Hok. reflexivity.
  - apply Hok in K. discriminate.
Qed.

Lemma nearest_floor (v : R) i : int64_position v -> nearest v i ->
  int64_of (ffloor (fadd v fhalf)) = i.
Proof.
  intros Hv [N1 N2].
  change (@fadd R ROps v fhalf) with (v + (1 / 2))%R.
  change (@ffloor R ROps (v + 1 / 2)%R) with (Some (Zfloor (v + 1 / 2))).
  rewrite int64_ok by exact (floor_int64 v Hv).
  apply Zfloor_imp. rewrite plus_IZR. lra.
Qed.

Lemma ops_state {F} {FO : FloatOps F} : forall (ops : list (se_op (F := F))) st st',
  run_ops ops st = Ok st' ->
  (st_slice st' <> None -> st_slice st <> None \/ exists sl, In (OpSlice sl) ops) /\
  (st_psf st' <> None -> st_psf st <> None \/ exists pf, In (OpPsf pf) ops) /\
  (st_interp st' <> None -> st_interp st <> None \/ exists im nz m, In (OpInterp im nz m) ops).
Proof.
  induction ops as [|op ops IH]; intros st st' H; cbn [run_ops] in H.
  - apply Ok_inj in H as <-. tauto.
  - apply bind_ok in H as (st1 & H1 & H). apply IH in H as (A & B & C).
    destruct op as [sl|pf|im nz m]; cbn [apply_op] in H1.
    + apply Ok_inj in H1 as <-. cbn [st_slice st_psf st_interp] in *.
      split; [|split]; intros K.
      * right. exists sl. left. reflexivity.
      * destruct (B K) as [|(x & X)]; [auto|]. right. exists x. right. exact X.
      * destruct (C K) as [|(x & y & z & X)]; [auto|]. right. exists x, y, z. right. exact X.
    + apply Ok_inj in H1 as <-. cbn [st_slice st_psf st_interp] in *.
      split; [|split]; intros K.
      * destruct (A K) as [|(x & X)]; [auto|]. right. exists x. right. exact X.
      * right. exists pf. left. reflexivity.
      * destruct (C K) as [|(x & y & z & X)]; [auto|]. right. exists x, y, z. right. exact X.
    + unfold set_interp in H1. destruct (st_slice st) as [sl|]; [|discriminate].
      apply Ok_inj in H1 as <-. cbn [st_slice st_psf st_interp] in *.
      split; [|split]; intros K.
      * left. discriminate.
      * destruct (B K) as [|(x & X)]; [auto|]. right. exists x. right. exact X.
      * right. exists im, nz, m. left. reflexivity.
Qed.
