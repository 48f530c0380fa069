(** Used slices keep their place, their PSF and the shapes of their arrays. *)
From Coq Require Import ZArith List Bool String Lia.
From Coq Require Import List.
From Verif Require Import Lib.Base Lib.Floats Model.Interp Model.SliceInputs
  Spec.FlagSpec Spec.InterpSpec Spec.SliceInputsSpec
  Proofs.EdgeCopyProofs Proofs.SliceInputsProofs Proofs.SelectProofs.
Import ListNotations.
Open Scope list_scope.
Open Scope Z_scope.

Section U.
Context {F : Type} {FO : FloatOps F} {RNG : Type}.
Context (rotate : F -> img F -> img F).
Context (normal : RNG -> nat -> F -> list F * RNG).
Context (normal2 : RNG -> Z -> Z -> (Z -> Z -> F) * RNG).
Context (interpolator : list (Z * Z) -> list F -> result (Z * Z -> F)).
Context (median : list F -> F).
Context (measure_fwhm : img F -> F).
Context (outliers : list (img F) -> list (img F) -> nat -> (Z -> Z -> F) * (Z -> Z -> F)).
Hypothesis normal_len : forall r n x, length (fst (normal r n x)) = n.

Lemma filled_all_len w b mx fl l l' (r r' : RNG) :
  filled_all (F := F) normal2 mx fl w b l l' r r' -> length l' = length l.
Proof. induction 1; cbn; congruence. Qed.

Lemma used_judged cf g s p rng u wt rng' nr nc :
  shaped nr nc s ->
  judged normal normal2 interpolator median measure_fwhm cf g s p rng (Used u wt) rng' ->
  p = false /\ made_from s u.
Proof.
  intros Hs Hju.
  inversion Hju as [| | | |im ns r1 im2 ns2 w2 b2 im3 ns3 pm u0 wt0 Hok Hfill Hprep Hnfe Hint Hpm Hfr Hint2 Hwt]; subst.
  destruct Hs as (H1 & H2 & [I1 I2] & [W1 W2] & [B1 B2] & Hns).
  split.
  { destruct p; [|reflexivity]. exfalso. apply (Hok 5). unfold failed. auto. }
  (* noise filling *)
  assert (Hf : shape_is nr nc im /\ Forall (shape_is nr nc) ns /\ length ns = length (sl_noises s)).
  { destruct Hfill as [(_ & -> & -> & _)|(_ & pos & mx & _ & _ & Hall)]; [repeat split; assumption|].
    pose proof (filled_all_len _ _ _ _ _ _ _ _ Hall) as Hl.
    assert (K : forall l l' (r r' : RNG), filled_all (F := F) normal2 mx (cf_noise_flags cf) (sl_weight s) (sl_bmask s) l l' r r' ->
              Forall (shape_is nr nc) l -> Forall (shape_is nr nc) l').
    { clear. induction 1 as [|a a' l l' r0 r1 r2 (d & _ & K1 & K2 & _) _ IH]; intros Hs; [constructor|].
      inversion Hs as [|? ? [X1 X2] Y]; subst. constructor; [split; congruence|auto]. }
    specialize (K _ _ _ _ Hall (Forall_cons _ (conj I1 I2) Hns)).
    cbn in Hl. split; [exact (Forall_inv K)|]. split; [exact (Forall_inv_tail K)|lia]. }
  destruct Hf as ([M1 M2] & Hnn & Ln).
  (* edges *)
  assert (He : shape_is nr nc im2 /\ Forall (shape_is nr nc) ns2 /\ length ns2 = length ns /\ shape_is nr nc w2).
  { unfold prepared in Hprep. destruct (cf_copy_masked_edges cf).
    2:{ destruct Hprep as (-> & -> & -> & _). repeat split; assumption. }
    assert (Hnn' : forall n, In n ns -> nrows n = nrows (sl_weight s) /\ ncols n = ncols (sl_weight s)).
    { rewrite Forall_forall in Hnn. intros n Hn. destruct (Hnn n Hn). lia. }
    destruct (Z_lt_ge_dec nr 2) as [L|L].
    { rewrite copy_edges_too_small in Hprep by (auto || lia). discriminate. }
    destruct (Z_lt_ge_dec nc 2) as [L'|L'].
    { rewrite copy_edges_too_small in Hprep by (auto || lia). discriminate. }
    destruct (copy_edges_spec (sl_weight s) (sl_bmask s) (cf_spline_flags cf) ltac:(lia) ltac:(lia)
                im ns ltac:(lia) ltac:(lia) ltac:(lia) ltac:(lia) Hnn') as (out & Eo & D1 & D2 & _ & D4).
    rewrite Eo in Hprep. injection Hprep as ->. cbn [es_image es_noises es_weight] in *.
    destruct D1 as (A1 & A2 & _). destruct D4 as (A3 & A4 & _).
    split; [split; lia|]. split; [|split; [symmetry; eapply Forall2_len; exact D2|split; lia]].
    clear -D2 Hnn. induction D2 as [|a b l l' (A1 & A2 & _) _ IH]; [constructor|].
    inversion Hnn as [|? ? [X1 X2] Y]; subst. constructor; [split; congruence|auto]. }
  destruct He as (Hi2 & Hn2 & Ln2 & Hw2).
  (* interpolation *)
  destruct Hint as (x & Hint). unfold interpolate in Hint.
  destruct (interp_shapes normal interpolator median im2 ns2 w2 b2 (cf_spline_flags cf) None (fdec 9 10) 4 false 1
              im3 ns3 x nr nc normal_len Hi2 Hn2 Hw2 Hint) as ([J1 J2] & J3 & J4).
  destruct Hint2 as [Iu Ip _ [If1 If2] Ifr [Io1 Io2] _]. destruct Hpm as [[P1 P2] _].
  constructor; rewrite ?Iu; cbn [sl_image_id sl_x_start sl_y_start sl_box_size sl_psf sl_psf_x_start sl_psf_y_start
    sl_psf_box_size sl_noises]; try reflexivity; [congruence| |].
  2:{ intros r c. rewrite Ip. apply Ifr. }
  intros nr' nc' (_ & _ & [I1' I2'] & _). assert (nr' = nr) as -> by lia. assert (nc' = nc) as -> by lia.
  split; [repeat split; cbn; assumption|]. rewrite Ip. repeat split; lia.
Qed.

Theorem build_used cf mg srcs rng out rng' :
  (forall src s, In src srcs -> src_slice src = Ok s -> exists nr nc, shaped nr nc s) ->
  (forall f s g nr nc, mg = Some f -> shaped nr nc s -> cut_out_of srcs s -> f s = Ok g -> shape_is nr nc g) ->
  build_slice_inputs rotate normal normal2 interpolator median measure_fwhm outliers cf mg srcs rng
    = Ok (out, rng') ->
  forall u, In u (si_slices out) ->
  exists src s, In src srcs /\ candidate src = true /\ src_psf_flag src = false /\
    src_slice src = Ok s /\ made_from s u /\
    ((forall x y : F, feqb x y = true -> feqb y x = true) ->
     (forall x y z : F, feqb x y = true -> feqb y z = true -> feqb x z = true) ->
     cf_reject_outliers cf = false -> unmarked_kept s u).
Proof.
  intros Hsh Hg E u Hu.
  destruct (build_judged rotate normal normal2 interpolator median measure_fwhm outliers cf mg srcs rng out rng'
              normal_len Hsh Hg E) as (poss & Hp & Hbad & Hgood).
  destruct (forallb snd poss) eqn:Ea.
  { rewrite forallb_forall in Ea. destruct Hbad as [-> _]; [now apply Forall_forall|]. destruct Hu. }
  destruct Hgood as (vs & Hj & Eo).
  { clear - Ea. induction poss as [|[s p] l IH]; [discriminate|]. cbn in Ea.
    destruct p; [right; apply IH; exact Ea|left; reflexivity]. }
  assert (Hx : forall (l : list (se_source (F := F))) l', Forall2 cut_from l l' -> forall x : se_slice (F := F) * bool, In x l' ->
              exists src, In src l /\ src_slice src = Ok (fst x) /\ src_psf_flag src = snd x).
  { clear. induction 1 as [|a b l l' [H1 H2] _ IH]; intros x [].
    - subst. exists a. split; [now left|auto].
    - destruct (IH x H) as (src & Hs & He). exists src. split; [now right|assumption]. }
  subst out. cbn in Hu. unfold used_of in Hu. apply in_flat_map in Hu as (v & Hv & Hu).
  destruct v as [u' wt|]; [|destruct Hu]. destruct Hu as [->|[]].
  destruct (judged_all_In rotate normal normal2 interpolator median measure_fwhm _ _ _ _ _ _ Hj _ Hv)
    as (s & p & g & s' & r & r' & Hin & Hm & Hs & Hju).
  (* the slice before outlier rejection *)
  assert (Hpin : exists s0, In (s0, p) poss /\ ident s = ident s0 /\ sl_psf s = sl_psf s0 /\
            length (sl_noises s) = length (sl_noises s0) /\ (cf_reject_outliers cf = false -> s = s0) /\
            forall nr nc, shaped nr nc s0 -> shaped nr nc s).
  { destruct (cf_reject_outliers cf); [|exists s; auto 12]. unfold reject_outliers in Hin.
    pose proof (put_pixels_facts 0 (outliers (map (fun sp => sl_image (fst sp)) poss)
                         (map (fun sp => sl_weight (fst sp)) poss)) poss) as Hput.
    revert Hin. clear - Hput. induction Hput as [|x y l l' (H1 & H2 & _ & H4 & H5 & H6) _ IH]; intros Hin;
      [destruct Hin|].
    destruct Hin as [->|Hin].
    - destruct x as [s0 p0]. cbn in H1, H2, H4, H5, H6. subst p0. exists s0. split; [now left|].
      rewrite H4, H5. repeat (split; [auto; discriminate|]). exact H6.
    - destruct (IH Hin) as (s0 & Hs0 & He). exists s0. split; [now right|assumption]. }
  destruct Hpin as (s0 & Hin0 & Hid & Hps & Hnz & Hrej & Hshp).
  destruct (Hx _ _ Hp _ Hin0) as (src & Hsrc & Es0 & Ep0). cbn [fst snd] in *. apply filter_In in Hsrc as [Hsrc Hc].
  destruct (Hsh src s0 Hsrc Es0) as (nr & nc & Hs0).
  pose proof (symmetrize_slice_shape rotate _ _ _ _ _ _ Hs (Hshp _ _ Hs0)) as Hs'.
  destruct (used_judged _ _ _ _ _ _ _ _ _ _ Hs' Hju) as [-> Hmf].
  exists src, s0. split; [exact Hsrc|]. split; [exact Hc|]. split; [exact Ep0|]. split; [exact Es0|].
  pose proof (symmetrize_slice_fields rotate _ _ _ _ Hs) as Hfl.
  assert (Hmf2 : made_from s u).
  { destruct Hmf as [E1 E2 E3 E4 E5 E6 E7 E8 E9 E10 E11].
    rewrite Hfl in E1, E2, E3, E4, E5, E6, E7, E8, E9. cbn [set_masks sl_image_id sl_x_start sl_y_start sl_box_size sl_psf
      sl_psf_x_start sl_psf_y_start sl_psf_box_size sl_noises] in *.
    constructor; try assumption. intros nr' nc' Q. apply E10.
    exact (symmetrize_slice_shape rotate _ _ _ _ _ _ Hs Q). }
  split.
  2:{ intros Hsym Htr Hr. specialize (Hrej Hr). subst s0. unfold unmarked_kept.
      assert (Him : sl_image s' = sl_image s /\ sl_noises s' = sl_noises s) by (rewrite Hfl; split; reflexivity).
      destruct Him as [<- <-].
      exact (unmarked_unchanged normal normal2 interpolator median measure_fwhm Hsym Htr _ _ _ _ _ _ _ _ _ _ Hs' Hju). }
  destruct Hmf2 as [E1 E2 E3 E4 E5 E6 E7 E8 E9 E10 E11]. unfold ident in Hid. 
  constructor; try assumption; try congruence. intros nr' nc' Q. apply E10, Hshp, Q.
Qed.
End U.
