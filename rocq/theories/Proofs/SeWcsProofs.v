(** Proofs about the coordinates of a single-epoch image. *)
From Coq Require Import ZArith List Bool String Lia Reals Lra.
From Coq Require Import List.
From Verif Require Import Lib.Base Lib.Floats Model.Affine Model.SkyBounds Model.WcsGrid Model.SeWcs
  Spec.SeWcsSpec Spec.AffineSpec Proofs.SliceInputsProofs
  Proofs.AffineProofs Proofs.SkyBoundsProofs.
Import ListNotations.
Open Scope list_scope.

Section Gen.
Context {F : Type} {FO : FloatOps F}.
Notation slice_wcs := (@slice_wcs F).

Lemma image2sky1_own (s : slice_wcs) x y :
  image2sky1 s x y = own_sky (sw_wcs s) (sw_color s) (fadd x (sw_offset s)) (fadd y (sw_offset s)).
Proof. unfold image2sky1, own_sky. destruct (sw_wcs s) as [| |[]|]; reflexivity. Qed.

Lemma sky2image1_own (s : slice_wcs) ra dec :
  sky2image1 s ra dec = match own_image (sw_wcs s) (sw_color s) ra dec with
                        | Ok (x, y) => Ok (fsub x (sw_offset s), fsub y (sw_offset s))
                        | Raise e => Raise e
                        end.
Proof.
  unfold sky2image1, own_image. destruct (sw_wcs s) as [i2s s2i j|a|[] t1 t2 l|]; try reflexivity.
  all: try (destruct (s2i ra dec) as [[x y]|]; reflexivity).
  all: try (destruct (sky2image a ra dec) as [x y]; reflexivity).
  all: destruct (t2 (sw_color s) ra dec) as [[x y]|]; reflexivity.
Qed.

Lemma kind_check_unusable (s : slice_wcs) :
  kind_check s = match unusable (sw_wcs s) with Some e => Raise e | None => Ok tt end.
Proof. unfold kind_check, unusable. destruct (sw_wcs s) as [| |[]|]; reflexivity. Qed.

(** Functions that fail like the kind of the WCS. *)
Definition respects (s : slice_wcs) (f : F -> F -> result (F * F)) : Prop :=
  forall e, unusable (sw_wcs s) = Some e -> forall x y, f x y = Raise e.

Lemma image2sky1_respects s : respects s (image2sky1 s).
Proof. intros e H x y. rewrite image2sky1_own. unfold own_sky, unusable in *.
  destruct (sw_wcs s) as [| |[]|]; congruence. Qed.

Lemma sky2image1_respects s : respects s (sky2image1 s).
Proof. intros e H x y. rewrite sky2image1_own. unfold own_image, unusable in *.
  destruct (sw_wcs s) as [| |[]|]; congruence. Qed.

Lemma method_scalar s f x y : respects s f ->
  se_method f s (Scalar x) (Scalar y) =
  match f x y with Ok (a, b) => Ok (Scalar a, Scalar b) | Raise e => Raise e end.
Proof.
  intros Hr. unfold se_method. cbn [ndim negb andb Z.leb Z.eqb Z.compare Pos.compare Pos.compare_cont ravel1 map2_result is_scalar].
  rewrite kind_check_unusable. destruct (unusable (sw_wcs s)) as [e|] eqn:E.
  - cbn [bind]. rewrite (Hr e E). reflexivity.
  - cbn [bind]. destruct (f x y) as [[a b]|]; reflexivity.
Qed.

Lemma map2_ok {A} (f : F -> F -> result A) xs ys l :
  map2_result f xs ys = Ok l <->
  length xs = length ys /\ length l = length xs /\
  forall i x y, nth_error xs i = Some x -> nth_error ys i = Some y ->
    exists p, nth_error l i = Some p /\ f x y = Ok p.
Proof.
  revert ys l. induction xs as [|x xs IH]; intros [|y ys] l; cbn [map2_result length].
  - split.
    + intros H. injection H as <-. split; [reflexivity|]. split; [reflexivity|]. intros [|i] ? ? H; discriminate.
    + intros (_ & H & _). destruct l; [reflexivity|discriminate].
  - split; [discriminate|intros (H & _); discriminate].
  - split; [discriminate|intros (H & _); discriminate].
  - split.
    + intros H. apply bind_ok in H as (a & Ea & H). apply bind_ok in H as (l' & El & H).
      injection H as <-. apply IH in El as (L1 & L2 & H). cbn [length]. split; [congruence|]. split; [congruence|].
      intros [|i] x0 y0 H1 H2; cbn in *; [injection H1 as <-; injection H2 as <-; eauto|eauto].
    + intros (L1 & L2 & H). destruct l as [|a l]; [discriminate|].
      destruct (H 0%nat x y eq_refl eq_refl) as (p & Hp & Hf). cbn in Hp. injection Hp as <-.
      rewrite Hf. cbn [bind]. assert (E : map2_result f xs ys = Ok l).
      { apply IH. cbn in L1, L2. split; [congruence|]. split; [congruence|]. intros i x0 y0 H1 H2.
        exact (H (S i) x0 y0 H1 H2). }
      rewrite E. reflexivity.
Qed.

Lemma method_vector s f xs ys a b : respects s f ->
  (se_method f s (Vector xs) (Vector ys) = Ok (Vector a, Vector b) <->
   unusable (sw_wcs s) = None /\ answers_elements (se_method f s) xs ys a b).
Proof.
  intros Hr. unfold se_method at 1.
  cbn [ndim negb andb Z.leb Z.eqb Z.compare Pos.compare Pos.compare_cont ravel1 is_scalar Pos.eqb].
  rewrite kind_check_unusable. destruct (unusable (sw_wcs s)) as [e|] eqn:E; cbn [bind].
  { split; [discriminate|intros (H & _); discriminate]. }
  split.
  - intros H. apply bind_ok in H as (l & El & H). cbn [answer] in H. apply Ok_inj in H.
    apply pair_equal_spec in H as [Ha Hb]. injection Ha as <-. injection Hb as <-.
    apply map2_ok in El as (L1 & L2 & H). split; [reflexivity|].
    split; [exact L1|]. rewrite !map_length. split; [exact L2|]. split; [exact L2|].
    intros i x y H1 H2. destruct (H i x y H1 H2) as ([p q] & Hp & Hf).
    exists p, q. rewrite !nth_error_map, Hp. split; [reflexivity|]. split; [reflexivity|].
    rewrite method_scalar by exact Hr. rewrite Hf. reflexivity.
  - intros (_ & L1 & La & Lb & H).
    assert (El : map2_result f xs ys = Ok (combine a b)).
    { apply map2_ok. split; [exact L1|]. rewrite combine_length. split; [lia|].
      intros i x y H1 H2. destruct (H i x y H1 H2) as (p & q & Hp & Hq & Hf).
      rewrite method_scalar in Hf by exact Hr. destruct (f x y) as [[p' q']|] eqn:Ef; [|discriminate].
      apply Ok_inj in Hf. apply pair_equal_spec in Hf as [X Y]. injection X as ->. injection Y as ->.
      exists (p, q). split; [|reflexivity]. clear - Hp Hq. revert b i Hp Hq.
      induction a as [|a0 a IH]; intros [|b0 b] [|i] Hp Hq; try discriminate; cbn in *; [congruence|auto]. }
    rewrite El. cbn [bind answer]. do 3 f_equal.
    + assert (L : length a = length b) by lia. clear - L. revert b L. induction a as [|x a IH]; intros [|y b] L; try discriminate; [reflexivity|].
      cbn. f_equal. apply IH. cbn in L. lia.
    + assert (L : length a = length b) by lia. clear - L. revert b L. induction a as [|x a IH]; intros [|y b] L; try discriminate; [reflexivity|].
      cbn. f_equal. apply IH. cbn in L. lia.
Qed.

(** The shape of an answer. *)
Lemma method_shape (s : slice_wcs) (f : F -> F -> result (F * F)) x y p q : se_method f s x y = Ok (p, q) ->
  (exists x0 y0 p0 q0, x = Scalar x0 /\ y = Scalar y0 /\ p = Scalar p0 /\ q = Scalar q0) \/
  (exists xs ys ps qs, x = Vector xs /\ y = Vector ys /\ p = Vector ps /\ q = Vector qs).
Proof.
  unfold se_method. destruct x as [x0|xs|], y as [y0|ys|];
    cbn [ndim negb andb Z.leb Z.eqb Z.compare Pos.compare Pos.compare_cont ravel1 is_scalar Pos.eqb];
    try discriminate; intros H; apply bind_ok in H as (u & _ & H); apply bind_ok in H as (l & _ & H);
    cbn [answer] in H.
  - destruct l as [|[a b] l]; [discriminate|]. left. apply Ok_inj in H. apply pair_equal_spec in H as [<- <-].
    exists x0, y0, a, b. repeat split.
  - right. apply Ok_inj in H. apply pair_equal_spec in H as [<- <-]. repeat eexists.
Qed.

Lemma method_undo s f g : respects s f -> respects s g ->
  (forall x y p, f x y = Ok p -> g (fst p) (snd p) = Ok (x, y)) ->
  forall x y a b, se_method f s x y = Ok (a, b) -> se_method g s a b = Ok (x, y).
Proof.
  intros Rf Rg Hu x y a b H.
  destruct (method_shape _ _ _ _ _ _ H) as [(x0 & y0 & p0 & q0 & -> & -> & -> & ->)|(xs & ys & ps & qs & -> & -> & -> & ->)].
  - rewrite method_scalar in * by assumption. destruct (f x0 y0) as [[a b]|] eqn:E; [|discriminate].
    apply Ok_inj in H. apply pair_equal_spec in H as [X Y]. injection X as ->. injection Y as ->.
    specialize (Hu _ _ _ E). cbn [fst snd] in Hu. rewrite Hu. reflexivity.
  - apply method_vector in H; [|exact Rf]. apply method_vector; [exact Rg|].
    destruct H as (U & L1 & La & Lb & H). split; [exact U|]. split; [lia|]. split; [lia|]. split; [lia|].
    intros i p q Hp Hq.
    assert (Hi : (i < length xs)%nat) by (rewrite <- La; apply nth_error_Some; congruence).
    destruct (nth_error xs i) as [x|] eqn:Ex; [|apply nth_error_None in Ex; lia].
    destruct (nth_error ys i) as [y|] eqn:Ey; [|apply nth_error_None in Ey; lia].
    destruct (H i x y Ex Ey) as (p' & q' & Hp' & Hq' & Hf). assert (p' = p) by congruence. assert (q' = q) by congruence. subst p' q'.
    exists x, y. split; [reflexivity|]. split; [reflexivity|].
    rewrite method_scalar in * by assumption. destruct (f x y) as [[a b]|] eqn:E; [|discriminate].
    apply Ok_inj in Hf. apply pair_equal_spec in Hf as [X Y]. injection X as ->. injection Y as ->.
    specialize (Hu _ _ _ E). cbn [fst snd] in Hu. rewrite Hu. reflexivity.
Qed.

Lemma method_bad_args (s : slice_wcs) (f : F -> F -> result (F * F)) x y : (1 < ndim x)%Z \/ (1 < ndim y)%Z \/ ndim x <> ndim y ->
  se_method f s x y = Raise AssertionError.
Proof.
  intros H. unfold se_method.
  destruct x, y; cbn in H |- *; try reflexivity; exfalso; lia.
Qed.

Lemma method_unusable (s : slice_wcs) (f : F -> F -> result (F * F)) x y e : unusable (sw_wcs s) = Some e -> (ndim x <= 1)%Z -> ndim x = ndim y ->
  se_method f s x y = Raise e.
Proof.
  intros H Hx Hxy. unfold se_method. rewrite kind_check_unusable, H.
  destruct x, y; cbn in *; try lia; reflexivity.
Qed.
End Gen.

(** ** The constructor *)
Section InitP.
Context {F P : Type} {FO : FloatOps F}.
Variables (load_image_wcs : string -> string -> result (wcs F))
          (load_head_wcs : string -> string -> string -> result (wcs F))
          (load_piff : string -> Z -> result (P * wcs F))
          (load_psfex : string -> result P)
          (get_image_shape : string -> string -> result (Z * Z)).
Notation choose_wcs' := (choose_wcs load_image_wcs load_head_wcs load_piff).
Notation choose_psf' := (choose_psf load_piff load_psfex).
Notation wcs_from' := (wcs_from load_image_wcs load_head_wcs load_piff).
Notation psf_from' := (psf_from load_piff load_psfex).

Lemma need_ok {A} (o : option A) a : need o = Ok a <-> o = Some a.
Proof. destruct o; cbn; split; intros H; try discriminate; injection H as ->; reflexivity. Qed.

Ltac steps :=
  repeat match goal with
  | H : bind _ _ = Ok _ |- _ => apply bind_ok in H as (? & ? & ?)
  | H : need _ = Ok _ |- _ => apply need_ok in H
  end.

Lemma choose_wcs_spec (si : @source F P) c w : choose_wcs' si c = Ok w <-> wcs_from' si c w.
Proof.
  split.
  - destruct c as [n|w']; cbn [choose_wcs].
    + destruct (String.eqb_spec n "image") as [->|_];
        [intros H; steps; econstructor; eassumption|].
      destruct (String.eqb_spec n "head") as [->|_];
        [intros H; steps; econstructor; eassumption|].
      destruct (String.eqb_spec n "affine") as [->|_].
      { intros H. steps. match goal with H : Ok _ = Ok _ |- _ => apply Ok_inj in H; subst w end.
        constructor. assumption. }
      destruct (String.eqb_spec n "pixmappy") as [->|_]; [|discriminate].
      intros H. steps. match goal with H : Ok _ = Ok _ |- _ => apply Ok_inj in H; subst w end.
      match goal with H : load_piff _ _ = Ok ?r |- _ => destruct r as [m w] end.
      econstructor; eassumption.
    + intros H. apply Ok_inj in H. subst. constructor.
  - intros H. destruct H; cbn [choose_wcs]; cbn; repeat (rewrite ?H, ?H0, ?H1, ?H2; cbn); reflexivity.
Qed.

Lemma choose_psf_spec (si : @source F P) c m : choose_psf' si c = Ok m <-> psf_from' si c m.
Proof.
  split.
  - destruct c as [n|w']; cbn [choose_psf].
    + destruct (String.eqb_spec n "galsim") as [->|_];
        [intros H; steps; econstructor; eassumption|].
      destruct (String.eqb_spec n "psfex") as [->|_];
        [intros H; steps; econstructor; eassumption|].
      destruct (String.eqb_spec n "piff") as [->|_]; [|discriminate].
      intros H. steps. match goal with H : Ok _ = Ok _ |- _ => apply Ok_inj in H; subst m end.
      match goal with H : load_piff _ _ = Ok ?r |- _ => destruct r as [m w] end.
      econstructor; eassumption.
    + intros H. apply Ok_inj in H. subst. constructor.
  - intros H. destruct H; cbn [choose_psf]; cbn; repeat (rewrite ?H, ?H0, ?H1; cbn); reflexivity.
Qed.

Definition get_shape (si : @source F P) : result (Z * Z) :=
  match s_image_shape si with
  | Some sh => Ok sh
  | None => p <- need (s_image_path si) ;; e <- need (s_image_ext si) ;; get_image_shape p e
  end.

Lemma get_shape_spec si sh : get_shape si = Ok sh <-> shape_from get_image_shape si sh.
Proof.
  unfold get_shape. split.
  - destruct (s_image_shape si) as [sh'|] eqn:E; intros H.
    + apply Ok_inj in H. subst. apply shape_recorded. exact E.
    + steps. eapply shape_read; eassumption.
  - intros H. destruct H; rewrite H; [reflexivity|]. rewrite H0, H1. exact H2.
Qed.

Variable radec_to_uv : F -> F -> F -> F -> F * F.
Variable cosdeg : F -> F.
Notation init' := (init load_image_wcs load_head_wcs load_piff load_psfex get_image_shape radec_to_uv cosdeg).

Lemma wcs_celestial_agree (w : wcs F) : wcs_is_celestial w = is_celestial w.
Proof. destruct w as [| |[]|]; reflexivity. Qed.

Lemma sky_calls_usable s nr nc n : sky_calls s nr nc n = Ok tt -> unusable (sw_wcs s) = None.
Proof.
  unfold sky_calls. destruct (grid_size nr nc n) as [[a b]|]; [|discriminate]. intros H.
  apply bind_ok in H as ([p q] & H & _).
  destruct (unusable (sw_wcs s)) as [e|] eqn:E; [|reflexivity].
  unfold se_image2sky in H. rewrite (method_unusable _ _ _ _ _ E) in H; [discriminate|cbn; lia|reflexivity].
Qed.

Lemma sky_calls_centre s nr nc n : sky_calls s nr nc n = Ok tt ->
  exists p, image2sky1 s (fadd (fdiv (fofZ (nc - 1)) (fofZ 2)) fzero)
                         (fadd (fdiv (fofZ (nr - 1)) (fofZ 2)) fzero) = Ok p.
Proof.
  unfold sky_calls. destruct (grid_size nr nc n) as [[a b]|]; [|discriminate]. intros H.
  apply bind_ok in H as (p & _ & H). apply bind_ok in H as (q & H & _).
  unfold se_image2sky in H. rewrite method_scalar in H by apply image2sky1_respects.
  destruct (image2sky1 s _ _) as [r|]; [eauto|discriminate].
Qed.

Lemma init_inv si psf w off col o : init' si psf w off col = Ok o ->
  wcs_from' si w (sw_wcs (so_wcs o)) /\ psf_from' si psf (so_psf o) /\
  shape_from get_image_shape si (so_shape o) /\
  sw_offset (so_wcs o) = off /\ sw_color (so_wcs o) = col /\
  unusable (sw_wcs (so_wcs o)) = None /\
  so_celestial o = is_celestial (sw_wcs (so_wcs o)) /\
  so_ccd_bnds o = (0, fst (so_shape o) - 1, 0, snd (so_shape o) - 1)%Z /\
  sky_calls (so_wcs o) (fst (so_shape o)) (snd (so_shape o)) 4 = Ok tt /\
  get_rough_sky_bounds (known_sky (so_wcs o)) radec_to_uv cosdeg (fst (so_shape o)) (snd (so_shape o))
    fzero (fofZ 16) 4 (so_celestial o) = Ok (so_sky_bnds o, so_ra_ccd o, so_dec_ccd o).
Proof.
  unfold init. intros H. apply bind_ok in H as (w0 & Ew & H). apply bind_ok in H as (m & Em & H).
  apply bind_ok in H as (sh & Es & H). apply bind_ok in H as ([] & Ec & H).
  apply bind_ok in H as ([[b ra] de] & Eb & H). apply Ok_inj in H. subst o.
  cbn [so_wcs so_psf so_shape so_celestial so_sky_bnds so_ra_ccd so_dec_ccd so_ccd_bnds sw_wcs sw_offset sw_color].
  repeat split; try assumption.
  - apply choose_wcs_spec. exact Ew.
  - apply choose_psf_spec. exact Em.
  - apply get_shape_spec. exact Es.
  - apply sky_calls_usable in Ec. exact Ec.
  - apply wcs_celestial_agree.
Qed.

Lemma init_intro si psf w off col w0 m sh b ra de :
  wcs_from' si w w0 -> psf_from' si psf m -> shape_from get_image_shape si sh ->
  sky_calls (mksw w0 off col) (fst sh) (snd sh) 4 = Ok tt ->
  get_rough_sky_bounds (known_sky (mksw w0 off col)) radec_to_uv cosdeg (fst sh) (snd sh)
    fzero (fofZ 16) 4 (is_celestial w0) = Ok (b, ra, de) ->
  init' si psf w off col
  = Ok (mkso (mksw w0 off col) m sh (is_celestial w0) b ra de (0, fst sh - 1, 0, snd sh - 1)%Z).
Proof.
  intros Hw Hm Hs Hc Hb. apply choose_wcs_spec in Hw. apply choose_psf_spec in Hm. apply get_shape_spec in Hs.
  unfold init. rewrite Hw. cbn [bind]. rewrite Hm. cbn [bind]. unfold get_shape in Hs. rewrite Hs. cbn [bind].
  rewrite Hc. cbn [bind]. rewrite wcs_celestial_agree, Hb. reflexivity.
Qed.

(** Failures, in the order in which the code meets them. *)
Lemma init_bad_wcs_name si psf n off col : ~ In n wcs_names -> init' si psf (Name n) off col = Raise RuntimeError.
Proof.
  intros H. unfold init, choose_wcs. cbn [In wcs_names] in H.
  destruct (String.eqb_spec n "image") as [->|_]; [tauto|].
  destruct (String.eqb_spec n "head") as [->|_]; [tauto|].
  destruct (String.eqb_spec n "affine") as [->|_]; [tauto|].
  destruct (String.eqb_spec n "pixmappy") as [->|_]; [tauto|]. reflexivity.
Qed.

Lemma init_bad_psf_name si n w w0 off col : wcs_from' si w w0 -> ~ In n psf_names ->
  init' si (Name n) w off col = Raise RuntimeError.
Proof.
  intros Hw H. apply choose_wcs_spec in Hw. unfold init. rewrite Hw. cbn [bind]. unfold choose_psf. cbn [In psf_names] in H.
  destruct (String.eqb_spec n "galsim") as [->|_]; [tauto|].
  destruct (String.eqb_spec n "psfex") as [->|_]; [tauto|].
  destruct (String.eqb_spec n "piff") as [->|_]; [tauto|]. reflexivity.
Qed.

Lemma init_unusable si psf w w0 m sh off col e nr nc :
  wcs_from' si w w0 -> psf_from' si psf m -> shape_from get_image_shape si sh ->
  grid_size (F := F) (fst sh) (snd sh) 4 = Some (nr, nc) ->
  unusable w0 = Some e -> init' si psf w off col = Raise e.
Proof.
  intros Hw Hm Hs Hg Hu. apply choose_wcs_spec in Hw. apply choose_psf_spec in Hm. apply get_shape_spec in Hs.
  unfold init. rewrite Hw. cbn [bind]. rewrite Hm. cbn [bind]. unfold get_shape in Hs. rewrite Hs. cbn [bind].
  unfold sky_calls. rewrite Hg. unfold se_image2sky at 1.
  rewrite (method_unusable _ _ _ _ e); [reflexivity|exact Hu|cbn; lia|reflexivity].
Qed.
End InitP.

(** ** Real arithmetic *)
Section Reals.
Open Scope R_scope.
Notation slice_wcs := (@slice_wcs R).

Lemma undo_image (s : slice_wcs) :
  undoes (own_image (sw_wcs s) (sw_color s)) (own_sky (sw_wcs s) (sw_color s)) ->
  forall x y p, image2sky1 s x y = Ok p -> sky2image1 s (fst p) (snd p) = Ok (x, y).
Proof.
  intros H x y p Hp. rewrite image2sky1_own in Hp. apply H in Hp. rewrite sky2image1_own, Hp.
  do 2 f_equal; cbn; ring.
Qed.

Lemma undo_sky (s : slice_wcs) :
  undoes (own_sky (sw_wcs s) (sw_color s)) (own_image (sw_wcs s) (sw_color s)) ->
  forall x y p, sky2image1 s x y = Ok p -> image2sky1 s (fst p) (snd p) = Ok (x, y).
Proof.
  intros H x y p Hp. rewrite sky2image1_own in Hp.
  destruct (own_image (sw_wcs s) (sw_color s) x y) as [[a b]|] eqn:E; [|discriminate].
  apply Ok_inj in Hp. subst p. cbn [fst snd]. rewrite image2sky1_own.
  replace (fadd (fsub a (sw_offset s)) (sw_offset s)) with a by (cbn; ring).
  replace (fadd (fsub b (sw_offset s)) (sw_offset s)) with b by (cbn; ring).
  apply H in E. exact E.
Qed.

Lemma usable_of_ok (s : slice_wcs) x y p : image2sky1 s x y = Ok p -> unusable (sw_wcs s) = None.
Proof.
  intros H. destruct (unusable (sw_wcs s)) as [e|] eqn:E; [|reflexivity].
  rewrite (image2sky1_respects s e E) in H. discriminate.
Qed.

Lemma map2_total (f : R -> R -> result (R * R)) (pts : list (R * R)) :
  (forall r c, In (r, c) pts -> exists p, f (c + 0) (r + 0) = Ok p) ->
  exists l, map2_result f (map (fun rc => snd rc + 0) pts) (map (fun rc => fst rc + 0) pts) = Ok l.
Proof.
  induction pts as [|[r c] pts IH]; intros H; cbn [map map2_result fst snd].
  - eauto.
  - destruct (H r c (or_introl eq_refl)) as (p & ->). destruct IH as (l & ->); [intros; apply H; right; assumption|].
    cbn. eauto.
Qed.

Lemma sky_calls_ok (s : slice_wcs) nrow ncol : (1 <= nrow)%Z -> (1 <= ncol)%Z ->
  (forall x y, 0 <= x <= IZR ncol - 1 -> 0 <= y <= IZR nrow - 1 -> exists p, image2sky1 s x y = Ok p) ->
  sky_calls s nrow ncol 4 = Ok tt.
Proof.
  intros H1 H2 H.
  assert (N : 1 <= IZR ncol) by (apply (IZR_le 1); assumption).
  assert (M : 1 <= IZR nrow) by (apply (IZR_le 1); assumption).
  assert (U : unusable (sw_wcs s) = None).
  { destruct (H 0 0) as (p & Hp); [lra|lra|]. exact (usable_of_ok _ _ _ _ Hp). }
  unfold sky_calls. destruct (grid_size_pos nrow ncol 4 H1 H2 ltac:(lia)) as (nr & nc & -> & Hnr & Hnc).
  set (pts := grid_points (grid_axis nr nrow) (grid_axis nc ncol)).
  destruct (map2_total (image2sky1 s) pts) as (l & Hl).
  { intros r c Hin. unfold pts in Hin. apply grid_points_in in Hin as [A B].
    apply grid_axis_in in A; [|assumption..]. apply grid_axis_in in B; [|assumption..].
    rewrite minus_IZR in A, B. rewrite !Rplus_0_r. apply H; assumption. }
  unfold se_image2sky. unfold se_method at 1.
  cbn [ndim negb andb Z.leb Z.eqb Z.compare Pos.compare Pos.compare_cont ravel1 is_scalar Pos.eqb].
  rewrite kind_check_unusable, U. cbn [bind]. unfold fzero. cbn [fadd fofZ ROps]. rewrite Hl. cbn [bind answer].
  rewrite method_scalar by apply image2sky1_respects.
  destruct (H (IZR (ncol - 1) / 2 + 0) (IZR (nrow - 1) / 2 + 0)) as ([a b] & Hp);
    [rewrite minus_IZR; lra|rewrite minus_IZR; lra|].
  cbn [fadd fdiv fofZ ROps]. rewrite Hp. reflexivity.
Qed.

Lemma known_sky_ok (s : slice_wcs) x y p : image2sky1 s x y = Ok p -> known_sky s x y = p.
Proof. unfold known_sky. intros ->. reflexivity. Qed.

Lemma known_affine (w : affine R) off col x y :
  known_sky (mksw (AffineW w) off col) x y = Affine.image2sky w (x + off) (y + off).
Proof. reflexivity. Qed.
End Reals.
