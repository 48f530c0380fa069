From Coq Require Import ZArith Bool String Ascii Lia List Permutation.
From Verif Require Import Lib.Base Lib.PyStr Lib.Floats Model.Writer Spec.WriterSpec
  Proofs.BaseFacts Proofs.PyStrProofs Proofs.JobsProofs.
Import ListNotations.
Open Scope list_scope.
Open Scope Z_scope.

(** ** Names *)

Lemma noise_ext_inj : forall a b, noise_ext a = noise_ext b -> a = b.
Proof.
  intros a b H. unfold noise_ext in H. apply append_cancel_l in H. apply append_cancel_r in H.
  apply dec_inj. exact H.
Qed.

Definition fixed_names : list string :=
  [IMAGE_EXT; WEIGHT_EXT; SEG_EXT; BMASK_EXT; ORMASK_EXT; NOISE_EXT; MFRAC_EXT; PSF_EXT].

Lemma noise_ext_fixed : forall k, ~ In (noise_ext k) fixed_names.
Proof.
  intros k H. unfold fixed_names in H. cbn [In] in H. unfold noise_ext in H.
  destruct (dec_shape k) as (u & Hu & E & _). rewrite E in H. clear E.
  destruct (k <? 0); destruct u; try congruence; cbn in H;
    repeat match type of H with
    | _ \/ _ => destruct H as [H|H]
    | _ = _ => discriminate H
    | False => contradiction
    end.
Qed.

Section WriterProofs.
Context {F : Type} {FO : FloatOps F}.
Variable V : Type.
Variable zero : V.
Variable cast : string -> V -> V.
Variable isneg : V -> bool.
Variable E : Type.
Notation results := (@results F V E).
Notation out := (@out F V E).
Notation belongs := (@belongs F V E).
Notation has_data := (@has_data F V E).
Notation fits := (fits V).
Notation hdu := (hdu V).

Lemma set_hdu_same : forall (f : fits) e h, set_hdu V f e h e = Some h.
Proof. intros. unfold set_hdu. now rewrite String.eqb_refl. Qed.

Lemma set_hdu_other : forall (f : fits) e h e', e <> e' -> set_hdu V f e h e' = f e'.
Proof. intros. unfold set_hdu. now rewrite (proj2 (String.eqb_neq _ _)). Qed.

(** ** Reserving *)

Lemma reserve_fold : forall names d (f : fits) ext,
  fold_left (fun f ext => create V zero f ext d) names f ext =
  if existsb (String.eqb ext) names then Some (mk_hdu V d (fun _ => zero)) else f ext.
Proof.
  intros names d. induction names as [|n l IH]; intros f ext; cbn [fold_left existsb]; [reflexivity|].
  rewrite IH. destruct (existsb (String.eqb ext) l); [now rewrite orb_true_r|].
  rewrite orb_false_r. unfold create, set_hdu. rewrite String.eqb_sym. reflexivity.
Qed.

Definition reserved (num box psf_box n_extra : Z) (f : fits) : Prop :=
  (forall ext, In ext (reserve_names n_extra) -> exists h, f ext = Some h /\ dim V h = num * box ^ 2) /\
  (exists h, f PSF_EXT = Some h /\ dim V h = num * psf_box ^ 2).

Lemma reserve_spec : forall np nps n_extra (f : fits) ext,
  reserve_images V zero f np nps n_extra ext =
  if String.eqb ext PSF_EXT then Some (mk_hdu V nps (fun _ => zero))
  else if existsb (String.eqb ext) (reserve_names n_extra) then Some (mk_hdu V np (fun _ => zero))
  else f ext.
Proof.
  intros np nps n_extra f ext. unfold reserve_images. unfold create at 1, set_hdu.
  rewrite String.eqb_sym. destruct (String.eqb ext PSF_EXT); [reflexivity|].
  apply reserve_fold.
Qed.

Lemma reserve_names_psf : forall n_extra, ~ In PSF_EXT (reserve_names n_extra).
Proof.
  intros n_extra H. unfold reserve_names in H. apply in_app_or in H. destruct H as [H|H].
  - cbn in H. repeat destruct H as [H|H]; try discriminate. contradiction.
  - apply in_map_iff in H. destruct H as (k & H & _). apply (noise_ext_fixed (k + 1)).
    rewrite H. unfold fixed_names. cbn. tauto.
Qed.

Lemma existsb_In : forall ext l, existsb (String.eqb ext) l = true <-> In ext l.
Proof.
  intros ext l. rewrite existsb_exists. split.
  - intros (x & A & B). apply String.eqb_eq in B. now subst.
  - intros H. exists ext. split; auto. apply String.eqb_refl.
Qed.

Lemma reserved_init : forall num box psf_box n_extra obj0,
  reserved num box psf_box n_extra (o_fits V E (@init_out F V zero E num box psf_box n_extra obj0)).
Proof.
  intros num box psf_box n_extra obj0. unfold init_out. cbn [o_fits]. split.
  - intros ext H. rewrite reserve_spec.
    destruct (String.eqb_spec ext PSF_EXT) as [->|N].
    { exfalso. exact (reserve_names_psf _ H). }
    rewrite (proj2 (existsb_In _ _) H). eexists. split; reflexivity.
  - rewrite reserve_spec. rewrite String.eqb_refl. eexists. split; reflexivity.
Qed.

(** ** One image *)

Definition negatives (ext info : string) (a : img V) : bool :=
  (String.eqb ext MFRAC_EXT || String.eqb ext WEIGHT_EXT) &&
  np_any (imap isneg (imap (cast info) a)).

Definition written (h : hdu) (info : string) (a : img V) (start : Z) : hdu :=
  mk_hdu V (dim V h)
    (fun p => if (start <=? p) && (p <? start + nrows a * ncols a)
              then cast info (px a ((p - start) / ncols a) ((p - start) mod ncols a))
              else dat V h p).

Lemma write_single_spec : forall (f : fits) a ext start io h,
  f ext = Some h -> 0 <= start -> start + nrows a * ncols a <= dim V h ->
  write_single_image V cast isneg f a ext start io =
  let info := match io with None => ext | Some e => e end in
  if negatives ext info a then Raise RuntimeError
  else Ok (set_hdu V f ext (written h info a start)).
Proof.
  intros f a ext start io h Hf H1 H2. unfold write_single_image. cbn zeta.
  set (info := match io with None => ext | Some e => e end). fold (negatives ext info a).
  destruct (negatives ext info a); [reflexivity|]. rewrite Hf. unfold hdu_write.
  cbn [imap nrows ncols].
  destruct (Z.ltb_spec start 0); [lia|].
  destruct (Z.ltb_spec (dim V h) (start + nrows a * ncols a)); [lia|].
  cbn [orb bind]. reflexivity.
Qed.

(** A list of writes to distinct extensions. *)
Definition write_list (start : Z) (l : list (string * option string * img V)) (f : result fits)
  : result fits :=
  fold_left (fun acc im =>
    f <- acc ;;
    let '(ext, info, a) := im in
    write_single_image V cast isneg f a ext start info) l f.

Definition ext_of (im : string * option string * img V) : string := fst (fst im).
Definition info_of (im : string * option string * img V) : string :=
  match snd (fst im) with None => fst (fst im) | Some e => e end.

Lemma write_list_raise : forall l start e, write_list start l (Raise e) = Raise e.
Proof. induction l as [|x l IH]; intros; [reflexivity|]. cbn. apply IH. Qed.

Lemma write_list_spec : forall l start (f : fits),
  NoDup (map ext_of l) -> 0 <= start ->
  (forall im, In im l -> exists h, f (ext_of im) = Some h /\
     start + nrows (snd im) * ncols (snd im) <= dim V h) ->
  if existsb (fun im => negatives (ext_of im) (info_of im) (snd im)) l
  then write_list start l (Ok f) = Raise RuntimeError
  else exists f', write_list start l (Ok f) = Ok f' /\
    (forall ext, ~ In ext (map ext_of l) -> f' ext = f ext) /\
    (forall im h, In im l -> f (ext_of im) = Some h ->
       f' (ext_of im) = Some (written h (info_of im) (snd im) start)).
Proof.
  induction l as [|im l IH]; intros start f HN Hs HF.
  - cbn. exists f. repeat split; auto. intros im h [].
  - cbn [map] in HN. apply NoDup_cons_iff in HN. destruct HN as [HN1 HN2].
    destruct (HF im (or_introl eq_refl)) as (h & Hh & Hd).
    destruct im as [[ext io] a]. cbn [ext_of fst snd] in *.
    assert (W : write_list start ((ext, io, a) :: l) (Ok f) =
                write_list start l (write_single_image V cast isneg f a ext start io)).
    { reflexivity. }
    rewrite W. clear W. rewrite (write_single_spec _ _ _ _ _ _ Hh Hs Hd). cbn zeta.
    cbn [existsb]. unfold ext_of at 1, info_of at 1. cbn [fst snd].
    set (info := match io with None => ext | Some e => e end).
    destruct (negatives ext info a) eqn:EN; cbn [orb].
    { apply write_list_raise. }
    specialize (IH start (set_hdu V f ext (written h info a start)) HN2 Hs).
    assert (HF' : forall im, In im l -> exists h0,
      set_hdu V f ext (written h info a start) (ext_of im) = Some h0 /\
      start + nrows (snd im) * ncols (snd im) <= dim V h0).
    { intros im Him. destruct (HF im (or_intror Him)) as (h0 & A & B).
      exists h0. split; [|exact B]. rewrite set_hdu_other; auto.
      intros ->. apply HN1. apply in_map. exact Him. }
    specialize (IH HF').
    destruct (existsb (fun im => negatives (ext_of im) (info_of im) (snd im)) l); [exact IH|].
    destruct IH as (f' & I1 & I2 & I3). exists f'. split; [exact I1|]. split.
    + intros e He. cbn [map In] in He. rewrite I2 by tauto.
      apply set_hdu_other. unfold ext_of in He. cbn in He. tauto.
    + intros im h0 [<-|Him] H0.
      * cbn [ext_of fst snd] in *. rewrite I2 by exact HN1. rewrite set_hdu_same.
        rewrite Hh in H0. injection H0 as <-. reflexivity.
      * apply I3; auto. rewrite set_hdu_other; auto.
        intros ->. apply HN1. apply in_map. exact Him.
Qed.

(** ** The images of a slice *)

Lemma extra_noises_In : forall (r : results) ext io a, In (ext, io, a) (extra_noises V E r) <->
  exists k, (1 <= k)%nat /\ nth_error (r_noises V E r) k = Some a /\
            ext = noise_ext (Z.of_nat k) /\ io = Some NOISE_EXT.
Proof.
  intros r ext io a. unfold extra_noises. rewrite in_map_iff. split.
  - intros (k & H & Hk). apply In_zrange in Hk. injection H as <- <- <-.
    exists (Z.to_nat k). split; [lia|]. split; [apply nth_error_nth'; lia|].
    split; [f_equal; lia|reflexivity].
  - intros (k & H1 & H2 & -> & ->). exists (Z.of_nat k).
    assert (k < length (r_noises V E r))%nat by (apply nth_error_Some; congruence).
    split; [|apply In_zrange; lia]. rewrite Nat2Z.id. f_equal. apply nth_error_nth. exact H2.
Qed.

Lemma images_of_spec : forall r : results, r_noises V E r <> [] ->
  exists l, images_of V E r = Ok l /\ NoDup (map ext_of l) /\
    (forall ext io a, In (ext, io, a) l <->
       (ext <> PSF_EXT /\ belongs r ext (match io with None => ext | Some e => e end) a /\
        match io with None => In ext fixed_names | Some e => e = NOISE_EXT /\ ~ In ext fixed_names end)).
Proof.
  intros r Hn. unfold images_of. destruct (r_noises V E r) as [|n0 ns] eqn:EN; [congruence|].
  assert (pynth (n0 :: ns) 0 = Ok n0) as -> by reflexivity. cbn [bind].
  eexists. split; [reflexivity|].
  assert (XN : forall b : bool, (b = false -> ns = []) ->
    (if b then extra_noises V E r else []) = extra_noises V E r).
  { intros [] H; [reflexivity|]. unfold extra_noises. rewrite EN, H by reflexivity. reflexivity. }
  rewrite XN.
  2: { intros H. destruct ns; auto. cbn [length] in H. apply Z.ltb_ge in H. lia. }
  clear XN. split.
  - rewrite !map_app. cbn [map].
    assert (NX : NoDup (map ext_of (extra_noises V E r))).
    { unfold extra_noises. rewrite map_map. apply FinFun.Injective_map_NoDup; [|apply NoDup_zrange].
      intros x y H. apply noise_ext_inj. exact H. }
    assert (DX : forall x, In x (map ext_of (extra_noises V E r)) -> ~ In x fixed_names).
    { intros x Hx. apply in_map_iff in Hx. destruct Hx as ([[e io] a] & <- & Hx).
      apply extra_noises_In in Hx. destruct Hx as (k & _ & _ & -> & _). apply noise_ext_fixed. }
    revert NX DX. generalize (map ext_of (extra_noises V E r)). intros l NX DX.
    unfold ext_of. cbn [fst].
    assert (D : forall a b : string, String.eqb a b = false -> a <> b) by (intros; now apply String.eqb_neq).
    apply (Permutation_NoDup (l := [IMAGE_EXT; BMASK_EXT; ORMASK_EXT; NOISE_EXT; WEIGHT_EXT; MFRAC_EXT] ++ l)).
    { cbn [app]. do 4 constructor. rewrite (Permutation_app_comm l). reflexivity. }
    cbn [app]. repeat (apply NoDup_cons;
      [intros K; cbn [In] in K;
       repeat match type of K with _ \/ _ => destruct K as [K|K] end; try discriminate;
       apply (DX _ K); unfold fixed_names; cbn; tauto|]). exact NX.
  - intros ext io a. rewrite !in_app_iff, extra_noises_In. rewrite EN. split.
    + intros [H|[H|H]].
      * cbn [In] in H. repeat destruct H as [H|H]; try contradiction; injection H as <- <- <-;
          (split; [discriminate|]; split; [|unfold fixed_names; cbn; tauto]);
          try constructor. rewrite EN. reflexivity.
      * destruct H as (k & H1 & H2 & -> & ->). split.
        { intros K. apply (noise_ext_fixed (Z.of_nat k)). rewrite K. unfold fixed_names. cbn. tauto. }
        split; [|split; [reflexivity|apply noise_ext_fixed]].
        apply b_extra; auto. rewrite EN. exact H2.
      * cbn [In] in H. repeat destruct H as [H|H]; try contradiction; injection H as <- <- <-;
          (split; [discriminate|]; split; [|unfold fixed_names; cbn; tauto]);
          constructor.
    + intros (H1 & H2 & H3).
      destruct io as [e|].
      * destruct H3 as [-> H3]. right. left. inversion H2; subst; try (exfalso; apply H3;
          unfold fixed_names; cbn; tauto).
        exists k. rewrite EN in *. auto.
      * inversion H2; subst; cbn [In]; try tauto.
        -- rewrite EN in H. injection H as <-. tauto.
        -- exfalso. apply (noise_ext_fixed (Z.of_nat k)). exact H3.
Qed.

Lemma belongs_fun : forall (r : results) ext info a info' a',
  belongs r ext info a -> belongs r ext info' a' -> info = info' /\ a = a'.
Proof.
  intros r ext info a info' a' H H'.
  assert (XF : forall k x, In x fixed_names -> ("noise" ++ dec (Z.of_nat k) ++ "_cutouts")%string <> x).
  { intros k x Hx K. apply (noise_ext_fixed (Z.of_nat k)). unfold noise_ext. rewrite K. exact Hx. }
  assert (G : forall ext', belongs r ext' info' a' -> ext = ext' -> info = info' /\ a = a').
  2: { apply (G ext); auto. }
  clear H'. intros ext' H' EE.
  destruct H; destruct H'; auto; try discriminate;
    try (exfalso; refine (XF _ _ _ EE); unfold fixed_names; cbn; tauto);
    try (exfalso; refine (XF _ _ _ (eq_sym EE)); unfold fixed_names; cbn; tauto).
  - split; congruence.
  - assert (Z.of_nat k = Z.of_nat k0) as K by (apply noise_ext_inj; unfold noise_ext; exact EE).
    apply Nat2Z.inj in K. subst. split; congruence.
Qed.

(** ** One slice *)

Definition bad_values (r : results) : bool :=
  negatives WEIGHT_EXT WEIGHT_EXT (r_weight V E r) || negatives MFRAC_EXT MFRAC_EXT (r_mfrac V E r).

Lemma negatives_other : forall ext info a, ext <> WEIGHT_EXT -> ext <> MFRAC_EXT ->
  negatives ext info a = false.
Proof.
  intros ext info a H1 H2. unfold negatives.
  rewrite (proj2 (String.eqb_neq _ _) H1), (proj2 (String.eqb_neq _ _) H2). reflexivity.
Qed.

Definition region_size (box psf_box : Z) (ext : string) : Z :=
  if String.eqb ext "psf" then psf_box ^ 2 else box ^ 2.

Lemma psf_belongs : forall (r : results) info a, belongs r PSF_EXT info a -> info = PSF_EXT /\ a = r_psf V E r.
Proof.
  intros r info a H. apply (belongs_fun r PSF_EXT info a "psf" (r_psf V E r) H). constructor.
Qed.

Lemma belongs_reserved : forall n_extra (r : results) ext info a,
  Z.of_nat (length (r_noises V E r)) = n_extra + 1 ->
  belongs r ext info a -> ext <> PSF_EXT -> In ext (reserve_names n_extra).
Proof.
  intros n_extra r ext info a HN H Hp. unfold reserve_names. apply in_or_app.
  inversion H; subst; try (left; cbn; tauto).
  - right. apply in_map_iff. exists (Z.of_nat k - 1). split.
    + replace (Z.of_nat k - 1 + 1) with (Z.of_nat k) by lia. reflexivity.
    + apply In_zrange.
      assert (k < length (r_noises V E r))%nat by (apply nth_error_Some; congruence). lia.
Qed.

Lemma process_one_spec : forall num box psf_box n_extra (o : out) (r : results),
  0 <= n_extra ->
  o_num V E o = num -> 0 <= r_i V E r < num ->
  reserved num box psf_box n_extra (o_fits V E o) ->
  well_shaped V E box psf_box n_extra r -> has_data r ->
  let res := process_one V cast isneg E (box ^ 2) (psf_box ^ 2) o r in
  if bad_values r then res = Raise RuntimeError
  else exists o', res = Ok o' /\
    o_num V E o' = num /\
    o_epochs V E o' = o_epochs V E o ++ [r_epochs V E r] /\
    (forall j, o_obj V E o' j = if j =? r_i V E r then
       mk_obj 1 (Z.of_nat (length (r_weights V E r)))
         (fdiv (fsum (r_weights V E r)) (lmaxF (r_weights V E r)))
         (r_psf_sigma V E r) (r_i V E r * box ^ 2) (r_i V E r * psf_box ^ 2)
       else o_obj V E o j) /\
    (forall ext, (forall info a, ~ belongs r ext info a) -> o_fits V E o' ext = o_fits V E o ext) /\
    (forall ext info a, belongs r ext info a -> exists h,
       o_fits V E o ext = Some h /\
       o_fits V E o' ext = Some (written h info a (r_i V E r * region_size box psf_box ext))).
Proof.
  intros num box psf_box n_extra o r Hx Hnum Hi [HR HRP] HS HD res.
  destruct (HS HD) as [HNs Hsh].
  assert (Hne : r_noises V E r <> []).
  { intros K. rewrite K in HNs. cbn in HNs. lia. }
  destruct (images_of_spec r Hne) as (l & HL & HND & HLin).
  assert (HLb : forall im, In im l -> belongs r (ext_of im) (info_of im) (snd im) /\ ext_of im <> PSF_EXT).
  { intros [[ext io] a] H. apply HLin in H. unfold ext_of, info_of. cbn [fst snd]. tauto. }
  set (i := r_i V E r) in *.
  assert (Hi0 : 0 <= i * box ^ 2) by (apply Z.mul_nonneg_nonneg; [lia|apply Z.pow_even_nonneg; exists 1; lia]).
  assert (Hbn : 0 <= box ^ 2) by (apply Z.pow_even_nonneg; exists 1; lia).
  assert (Hpn : 0 <= psf_box ^ 2) by (apply Z.pow_even_nonneg; exists 1; lia).
  assert (HFit : forall im, In im l -> exists h, o_fits V E o (ext_of im) = Some h /\
    i * box ^ 2 + nrows (snd im) * ncols (snd im) <= dim V h).
  { intros im Him. destruct (HLb im Him) as [B1 B2].
    destruct (HR (ext_of im)) as (h & A1 & A2).
    { eapply belongs_reserved; eauto. }
    exists h. split; [exact A1|]. rewrite A2. destruct (Hsh _ _ _ B1) as [S1 S2].
    change "psf"%string with PSF_EXT in S1, S2. rewrite (proj2 (String.eqb_neq _ _) B2) in S1, S2. rewrite S1, S2.
    replace (box * box) with (box ^ 2) by ring. nia. }
  pose proof (write_list_spec l (i * box ^ 2) (o_fits V E o) HND Hi0 HFit) as W.
  assert (BV : existsb (fun im => negatives (ext_of im) (info_of im) (snd im)) l = bad_values r).
  { unfold bad_values. apply eq_true_iff_eq. rewrite existsb_exists, orb_true_iff. split.
    - intros (im & Him & Hn). destruct (HLb im Him) as [B1 B2].
      destruct (string_dec (ext_of im) WEIGHT_EXT) as [E1|N1].
      + left. rewrite E1 in *. destruct (belongs_fun _ _ _ _ _ _ B1 (b_weight V E r)) as [E2 E3].
        rewrite E2, E3 in Hn. exact Hn.
      + destruct (string_dec (ext_of im) MFRAC_EXT) as [E1|N2].
        * right. rewrite E1 in *. destruct (belongs_fun _ _ _ _ _ _ B1 (b_mfrac V E r)) as [E2 E3].
          rewrite E2, E3 in Hn. exact Hn.
        * rewrite negatives_other in Hn by auto. discriminate.
    - intros [Hn|Hn].
      + exists (WEIGHT_EXT, None, r_weight V E r). split; [|exact Hn]. apply HLin.
        split; [discriminate|]. split; [constructor|unfold fixed_names; cbn; tauto].
      + exists (MFRAC_EXT, None, r_mfrac V E r). split; [|exact Hn]. apply HLin.
        split; [discriminate|]. split; [constructor|unfold fixed_names; cbn; tauto]. }
  rewrite BV in W. clear BV.
  assert (RES : res = (f <- write_list (i * box ^ 2) l (Ok (o_fits V E o)) ;;
          f <- write_single_image V cast isneg f (r_psf V E r) PSF_EXT (i * psf_box ^ 2) None ;;
          Ok (mk_out V E f (o_num V E o)
                (set_obj (o_obj V E o) i
                   (mk_obj 1 (Z.of_nat (length (r_weights V E r)))
                      (fdiv (fsum (r_weights V E r)) (lmaxF (r_weights V E r)))
                      (r_psf_sigma V E r) (i * box ^ 2) (i * psf_box ^ 2)))
                (o_epochs V E o ++ [r_epochs V E r])))).
  { unfold res, process_one, process_results. fold i.
    assert (pyindex (o_num V E o) i = Some i) as ->.
    { unfold pyindex. rewrite Hnum. destruct (Z.leb_spec 0 i); [|lia].
      destruct (Z.ltb_spec i num); [|lia]. reflexivity. }
    unfold has_data in HD. destruct (r_weights V E r) as [|w ws] eqn:EW; [congruence|].
    rewrite HL. cbn [bind]. reflexivity. }
  destruct (bad_values r).
  { rewrite RES, W. reflexivity. }
  destruct W as (f1 & W1 & W2 & W3). rewrite RES, W1. cbn [bind]. clear RES.
  destruct HRP as (hp & P1 & P2).
  assert (NP : ~ In PSF_EXT (map ext_of l)).
  { intros K. apply in_map_iff in K. destruct K as (im & K1 & K2). destruct (HLb im K2). congruence. }
  assert (P1' : f1 PSF_EXT = Some hp) by (rewrite W2; auto).
  destruct (Hsh _ _ _ (b_psf V E r)) as [S1 S2]. cbn in S1, S2.
  rewrite (write_single_spec f1 (r_psf V E r) PSF_EXT (i * psf_box ^ 2) None hp P1').
  2: nia.
  2: { rewrite P2, S1, S2. replace (psf_box * psf_box) with (psf_box ^ 2) by ring. nia. }
  cbn zeta. rewrite negatives_other by discriminate. cbn [bind].
  eexists. split; [reflexivity|]. cbn [o_num o_epochs o_obj o_fits].
  split; [exact Hnum|]. split; [reflexivity|]. split; [|split].
  - intros j. unfold set_obj. reflexivity.
  - intros ext Hno.
    assert (ext <> PSF_EXT) by (intros ->; apply (Hno _ _ (b_psf V E r))).
    rewrite set_hdu_other by auto. apply W2. intros K. apply in_map_iff in K.
    destruct K as (im & K1 & K2). destruct (HLb im K2) as [K3 _]. rewrite K1 in K3.
    exact (Hno _ _ K3).
  - intros ext info a Hb. unfold region_size.
    destruct (String.eqb_spec ext "psf") as [->|N].
    + exists hp. split; [exact P1|]. change "psf"%string with PSF_EXT in *. rewrite set_hdu_same.
      destruct (psf_belongs _ _ _ Hb) as [-> ->]. reflexivity.
    + assert (Him : exists io, In (ext, io, a) l /\ info = match io with None => ext | Some e => e end).
      { destruct (in_dec string_dec ext fixed_names) as [I|I].
        - exists None. split.
          + apply HLin. split; [exact N|]. split; [|exact I].
            assert (info = ext) as <-; [|exact Hb].
            inversion Hb; subst; try reflexivity.
            exfalso. apply (noise_ext_fixed (Z.of_nat k)). exact I.
          + inversion Hb; subst; try reflexivity.
            exfalso. apply (noise_ext_fixed (Z.of_nat k)). exact I.
        - exists (Some NOISE_EXT).
          assert (EI : info = NOISE_EXT).
          { inversion Hb; subst; try reflexivity; exfalso; apply I; unfold fixed_names; cbn; tauto. }
          subst info. split; [|reflexivity]. apply HLin. split; [exact N|]. split; [exact Hb|]. auto. }
      destruct Him as (io & Him & EI). destruct (HFit _ Him) as (h & A1 & A2).
      unfold ext_of in A1. cbn in A1. exists h. split; [exact A1|].
      rewrite set_hdu_other by (intro K; apply N; symmetry; exact K).
      specialize (W3 _ h Him A1). unfold ext_of, info_of in W3. cbn [fst snd] in W3.
      rewrite EI. exact W3.
Qed.

Lemma process_one_empty : forall num npix npix_psf (o : out) (r : results),
  o_num V E o = num -> 0 <= r_i V E r < num -> ~ has_data r ->
  exists o', process_one V cast isneg E npix npix_psf o r = Ok o' /\
    o_num V E o' = num /\
    o_epochs V E o' = o_epochs V E o ++ [r_epochs V E r] /\
    o_fits V E o' = o_fits V E o /\
    (forall j, o_obj V E o' j = if j =? r_i V E r then
       mk_obj (o_ncutout (o_obj V E o j)) 0 fzero (o_psf_sigma (o_obj V E o j))
              (o_start_row (o_obj V E o j)) (o_psf_start_row (o_obj V E o j))
       else o_obj V E o j).
Proof.
  intros num npix npix_psf o r Hnum Hi HD. unfold process_one, process_results.
  assert (pyindex (o_num V E o) (r_i V E r) = Some (r_i V E r)) as ->.
  { unfold pyindex. rewrite Hnum. destruct (Z.leb_spec 0 (r_i V E r)); [|lia].
    destruct (Z.ltb_spec (r_i V E r) num); [|lia]. reflexivity. }
  unfold has_data in HD. destruct (r_weights V E r) as [|w ws] eqn:EW; [|exfalso; apply HD; discriminate].
  eexists. split; [reflexivity|]. cbn [o_num o_epochs o_obj o_fits]. repeat split; auto.
  intros j. unfold set_obj. destruct (Z.eqb_spec j (r_i V E r)) as [->|]; reflexivity.
Qed.

Lemma has_data_dec : forall r : results, has_data r \/ ~ has_data r.
Proof. intros r. unfold has_data. destruct (r_weights V E r); [right|left]; congruence. Qed.

(** ** All slices *)

(** What should be at a position after the results [rs] have been written
    over old contents. *)
Definition content (box psf_box : Z) (rs : list results) (ext : string) (p : Z) (old v : V) : Prop :=
  (forall r info a, In r rs -> has_data r -> belongs r ext info a ->
     in_region (r_i V E r) (region_size box psf_box ext) p ->
     let n := ncols a in let q := p - r_i V E r * region_size box psf_box ext in
     v = cast info (px a (q / n) (q mod n))) /\
  ((forall r info a, In r rs -> has_data r -> belongs r ext info a ->
     ~ in_region (r_i V E r) (region_size box psf_box ext) p) -> v = old).

Definition obj_after (box psf_box : Z) (r : results) (old : obj) : obj :=
  match r_weights V E r with
  | [] => mk_obj (o_ncutout old) 0 fzero (o_psf_sigma old) (o_start_row old) (o_psf_start_row old)
  | ws => mk_obj 1 (Z.of_nat (length ws)) (fdiv (fsum ws) (lmaxF ws)) (r_psf_sigma V E r)
                 (r_i V E r * box ^ 2) (r_i V E r * psf_box ^ 2)
  end.

Lemma in_region_disjoint : forall i j n p, in_region i n p -> in_region j n p -> i = j.
Proof.
  intros i j n p [H1 H2] [H3 H4].
  assert (0 < n) by nia. destruct (Z.lt_trichotomy i j) as [L|[L|L]]; auto; exfalso; nia.
Qed.

Lemma process_all_spec : forall num box psf_box n_extra (rs : list results) (o : out),
  0 <= n_extra ->
  o_num V E o = num ->
  reserved num box psf_box n_extra (o_fits V E o) ->
  NoDup (map (r_i V E) rs) ->
  (forall r, In r rs -> 0 <= r_i V E r < num /\ well_shaped V E box psf_box n_extra r) ->
  (forall r, In r rs -> has_data r -> bad_values r = false) ->
  exists o', process_all V cast isneg E (box ^ 2) (psf_box ^ 2) o rs = Ok o' /\
    o_num V E o' = num /\
    o_epochs V E o' = o_epochs V E o ++ map (r_epochs V E) rs /\
    (forall ext, match o_fits V E o ext with
                 | None => (forall r info a, In r rs -> has_data r -> ~ belongs r ext info a) ->
                           o_fits V E o' ext = None
                 | Some h => exists h', o_fits V E o' ext = Some h' /\ dim V h' = dim V h /\
                     forall p, content box psf_box rs ext p (dat V h p) (dat V h' p)
                 end) /\
    (forall j, (forall r, In r rs -> r_i V E r <> j) -> o_obj V E o' j = o_obj V E o j) /\
    (forall r, In r rs -> o_obj V E o' (r_i V E r) = obj_after box psf_box r (o_obj V E o (r_i V E r))).
Proof.
  intros num box psf_box n_extra rs. induction rs as [|r rs IH]; intros o Hx Hnum HR HN Hin Hok.
  - exists o. cbn [process_all map]. rewrite app_nil_r. repeat split; auto.
    + intros ext. destruct (o_fits V E o ext) as [h|] eqn:EH; auto.
      exists h. repeat split; auto. intros r info a [].
    + intros r [].
  - cbn [map] in HN. apply NoDup_cons_iff in HN. destruct HN as [HN1 HN2].
    destruct (Hin r (or_introl eq_refl)) as [Hi HS].
    assert (Hdist : forall r', In r' rs -> r_i V E r' <> r_i V E r).
    { intros r' Hr' K. apply HN1. rewrite <- K. apply in_map. exact Hr'. }
    cbn [process_all].
    assert (ONE : exists o1, process_one V cast isneg E (box ^ 2) (psf_box ^ 2) o r = Ok o1 /\
      o_num V E o1 = num /\ o_epochs V E o1 = o_epochs V E o ++ [r_epochs V E r] /\
      (forall j, o_obj V E o1 j = if j =? r_i V E r then obj_after box psf_box r (o_obj V E o j)
                                  else o_obj V E o j) /\
      (forall ext, match o_fits V E o ext with
        | None => (has_data r -> forall info a, ~ belongs r ext info a) -> o_fits V E o1 ext = None
        | Some h => exists h', o_fits V E o1 ext = Some h' /\ dim V h' = dim V h /\
            forall p, content box psf_box [r] ext p (dat V h p) (dat V h' p)
        end)).
    { destruct (has_data_dec r) as [D|D].
      - pose proof (process_one_spec num box psf_box n_extra o r Hx Hnum Hi HR HS D) as P.
        cbn zeta in P. rewrite (Hok r (or_introl eq_refl) D) in P.
        destruct P as (o1 & P1 & P2 & P3 & P4 & P5 & P6).
        exists o1. split; [exact P1|]. split; [exact P2|]. split; [exact P3|]. split.
        { intros j. rewrite P4. destruct (Z.eqb_spec j (r_i V E r)) as [->|]; [|reflexivity].
          unfold obj_after. unfold has_data in D. destruct (r_weights V E r); [congruence|reflexivity]. }
        intros ext. destruct (o_fits V E o ext) as [h|] eqn:EH.
        + assert (C : (exists info a, belongs r ext info a) \/ (forall info a, ~ belongs r ext info a)).
          { destruct (string_dec ext PSF_EXT) as [->|N]; [left; eexists; eexists; constructor|].
            destruct (HS D) as [HNs _].
            assert (Hne : r_noises V E r <> []).
            { intros K. rewrite K in HNs. cbn in HNs. lia. }
            destruct (images_of_spec r Hne) as (l & _ & _ & HLin).
            destruct (in_dec string_dec ext (map ext_of l)) as [I|I].
            - left. apply in_map_iff in I. destruct I as ([[e io] a] & <- & I). apply HLin in I.
              cbn. destruct I as (_ & I & _). eauto.
            - right. intros info a B. apply I.
              destruct (in_dec string_dec ext fixed_names) as [J|J].
              + apply in_map_iff. exists (ext, None, a). split; [reflexivity|]. apply HLin.
                split; [exact N|]. split; [|exact J].
                assert (info = ext) as <-; [|exact B].
                inversion B; subst; try reflexivity.
                exfalso. apply (noise_ext_fixed (Z.of_nat k)). exact J.
              + apply in_map_iff. exists (ext, Some NOISE_EXT, a). split; [reflexivity|]. apply HLin.
                split; [exact N|]. split; [|auto].
                assert (info = NOISE_EXT) as <-; [|exact B].
                inversion B; subst; try reflexivity; exfalso; apply J; unfold fixed_names; cbn; tauto. }
          destruct C as [(info & a & B)|NB].
          * destruct (P6 _ _ _ B) as (h0 & Q1 & Q2). rewrite EH in Q1. injection Q1 as <-.
            eexists. split; [exact Q2|]. split; [reflexivity|]. intros p. unfold written. cbn [dat].
            destruct (HS D) as [_ Hsh]. destruct (Hsh _ _ _ B) as [S1 S2].
            assert (SZ : nrows a * ncols a = region_size box psf_box ext).
            { rewrite S1, S2. unfold region_size. destruct (String.eqb ext "psf"); ring. }
            rewrite SZ.
            split.
            -- intros r' info' a' [<-|[]] _ B' [R1 R2]. cbn zeta.
               destruct (belongs_fun _ _ _ _ _ _ B B') as [-> ->].
               destruct (Z.leb_spec (r_i V E r * region_size box psf_box ext) p); [|lia].
               destruct (Z.ltb_spec p (r_i V E r * region_size box psf_box ext + region_size box psf_box ext)); [|lia].
               reflexivity.
            -- intros NR. specialize (NR r info a (or_introl eq_refl) D B). unfold in_region in NR.
               destruct (Z.leb_spec (r_i V E r * region_size box psf_box ext) p); [|reflexivity].
               destruct (Z.ltb_spec p (r_i V E r * region_size box psf_box ext + region_size box psf_box ext));
                 [|reflexivity]. exfalso. apply NR. lia.
          * rewrite (P5 _ NB). exists h. split; [exact EH|]. split; [reflexivity|]. intros p. split.
            -- intros r' info' a' [<-|[]] _ B'. exfalso. exact (NB _ _ B').
            -- reflexivity.
        + intros NB. rewrite P5; auto.
      - destruct (process_one_empty num (box ^ 2) (psf_box ^ 2) o r Hnum Hi D) as (o1 & P1 & P2 & P3 & P4 & P5).
        exists o1. split; [exact P1|]. split; [exact P2|]. split; [exact P3|]. split.
        { intros j. rewrite P5. destruct (Z.eqb_spec j (r_i V E r)) as [->|]; [|reflexivity].
          unfold obj_after. unfold has_data in D. destruct (r_weights V E r); [reflexivity|].
          exfalso. apply D. discriminate. }
        intros ext. rewrite P4. destruct (o_fits V E o ext) as [h|] eqn:EH; auto.
        exists h. split; [reflexivity|]. split; [reflexivity|]. intros p. split; [|reflexivity].
        intros r' info' a' [<-|[]] D'. contradiction. }
    destruct ONE as (o1 & P1 & P2 & P3 & P4 & P5). rewrite P1. cbn [bind].
    assert (HR1 : reserved num box psf_box n_extra (o_fits V E o1)).
    { destruct HR as [R1 R2]. split.
      - intros ext I. destruct (R1 ext I) as (h & A & B). specialize (P5 ext). rewrite A in P5.
        destruct P5 as (h' & Q1 & Q2 & _). exists h'. split; [exact Q1|congruence].
      - destruct R2 as (h & A & B). specialize (P5 PSF_EXT). rewrite A in P5.
        destruct P5 as (h' & Q1 & Q2 & _). exists h'. split; [exact Q1|congruence]. }
    destruct (IH o1 Hx P2 HR1 HN2) as (o' & I1 & I2 & I3 & I4 & I5 & I6).
    { intros r' Hr'. apply Hin. right. exact Hr'. }
    { intros r' Hr'. apply Hok. right. exact Hr'. }
    exists o'. split; [exact I1|]. split; [exact I2|]. split.
    { rewrite I3, P3, <- app_assoc. reflexivity. }
    split; [|split].
    + intros ext. specialize (P5 ext). specialize (I4 ext).
      destruct (o_fits V E o ext) as [h|] eqn:EH.
      * destruct P5 as (h1 & Q1 & Q2 & Q3). rewrite Q1 in I4.
        destruct I4 as (h' & J1 & J2 & J3). exists h'. split; [exact J1|]. split; [congruence|].
        intros p. destruct (Q3 p) as [A1 A2]. destruct (J3 p) as [B1 B2]. split.
        -- intros r' info a [<-|Hr'] D B Reg.
           ++ rewrite B2.
              ** apply (A1 r info a (or_introl eq_refl) D B Reg).
              ** intros r' info' a' Hr' D' B' Reg'. apply (Hdist r' Hr').
                 apply (in_region_disjoint _ _ _ _ Reg' Reg).
           ++ apply (B1 r' info a Hr' D B Reg).
        -- intros NR. rewrite B2.
           ++ apply A2. intros r' info a [<-|[]] D B. apply (NR r info a (or_introl eq_refl) D B).
           ++ intros r' info a Hr' D B. apply (NR r' info a (or_intror Hr') D B).
      * intros NB.
        assert (Q : o_fits V E o1 ext = None).
        { apply P5. intros D info a. apply (NB r info a (or_introl eq_refl) D). }
        rewrite Q in I4. apply I4. intros r' info a Hr' D. apply (NB r' info a (or_intror Hr') D).
    + intros j Hj. rewrite I5 by (intros; apply Hj; right; auto). rewrite P4.
      destruct (Z.eqb_spec j (r_i V E r)) as [->|]; [|reflexivity].
      exfalso. apply (Hj r (or_introl eq_refl)). reflexivity.
    + intros r' [<-|Hr'].
      * rewrite I5 by (intros r' Hr'; apply Hdist; exact Hr'). rewrite P4, Z.eqb_refl. reflexivity.
      * rewrite I6 by exact Hr'. rewrite P4.
        destruct (Z.eqb_spec (r_i V E r') (r_i V E r)) as [K|]; [|reflexivity].
        exfalso. exact (Hdist _ Hr' K).
Qed.

(** A slice with negative values makes the run fail. *)
Lemma process_all_bad : forall num box psf_box n_extra (rs : list results) (o : out) r,
  0 <= n_extra -> o_num V E o = num ->
  reserved num box psf_box n_extra (o_fits V E o) ->
  NoDup (map (r_i V E) rs) ->
  (forall r, In r rs -> 0 <= r_i V E r < num /\ well_shaped V E box psf_box n_extra r) ->
  In r rs -> has_data r -> bad_values r = true ->
  process_all V cast isneg E (box ^ 2) (psf_box ^ 2) o rs = Raise RuntimeError.
Proof.
  intros num box psf_box n_extra rs. induction rs as [|x rs IH]; intros o r Hx Hnum HR HN Hin Hr D Hb;
    [contradiction|].
  cbn [map] in HN. pose proof HN as HN'. apply NoDup_cons_iff in HN. destruct HN as [HN1 HN2].
  destruct (Hin x (or_introl eq_refl)) as [Hi HS].
  cbn [process_all].
  destruct (has_data_dec x) as [Dx|Dx].
  - destruct (bad_values x) eqn:Bx.
    + pose proof (process_one_spec num box psf_box n_extra o x Hx Hnum Hi HR HS Dx) as P.
      cbn zeta in P. rewrite Bx in P. rewrite P. reflexivity.
    + destruct (process_all_spec num box psf_box n_extra [x] o Hx Hnum HR) as (o1 & P1 & P2 & _ & P4 & _).
      { constructor; [intros []|constructor]. }
      { intros r' [<-|[]]. auto. }
      { intros r' [<-|[]] _. exact Bx. }
      cbn [process_all] in P1.
      destruct (process_one V cast isneg E (box ^ 2) (psf_box ^ 2) o x) as [o2|e]; [|discriminate].
      cbn [bind] in *. injection P1 as ->.
      apply (IH o1 r); auto.
      * destruct HR as [R1 R2]. split.
        -- intros ext I. destruct (R1 ext I) as (h & A & B). specialize (P4 ext). rewrite A in P4.
           destruct P4 as (h' & Q1 & Q2 & _). exists h'. split; [exact Q1|congruence].
        -- destruct R2 as (h & A & B). specialize (P4 PSF_EXT). rewrite A in P4.
           destruct P4 as (h' & Q1 & Q2 & _). exists h'. split; [exact Q1|congruence].
      * intros r' Hr'. apply Hin. right; auto.
      * destruct Hr as [<-|Hr]; [congruence|exact Hr].
  - destruct (process_one_empty num (box ^ 2) (psf_box ^ 2) o x Hnum Hi Dx) as (o1 & P1 & P2 & _ & P4 & _).
    rewrite P1. cbn [bind]. apply (IH o1 r); auto.
    + rewrite P4. exact HR.
    + intros r' Hr'. apply Hin. right; auto.
    + destruct Hr as [<-|Hr]; [contradiction|exact Hr].
Qed.

Lemma bad_values_spec : forall r : results,
  bad_values r = false <-> no_negatives V E cast isneg r.
Proof.
  intros r. unfold bad_values, no_negatives, negatives.
  change (String.eqb WEIGHT_EXT MFRAC_EXT || String.eqb WEIGHT_EXT WEIGHT_EXT) with true.
  change (String.eqb MFRAC_EXT MFRAC_EXT || String.eqb MFRAC_EXT WEIGHT_EXT) with true.
  cbn [andb]. rewrite orb_false_iff.
  assert (K : forall info (a : img V), np_any (imap isneg (imap (cast info) a)) = false <->
    forall y x, inb a y x -> isneg (cast info (px a y x)) = false).
  { intros info a. rewrite <- not_true_iff_false. rewrite np_any_spec. split.
    - intros H y x Hyx. apply not_true_iff_false. intros T. apply H. exists y, x. split; auto.
    - intros H (y & x & Hyx & T). cbn [imap px] in T. rewrite H in T; [discriminate|exact Hyx]. }
  rewrite !K. reflexivity.
Qed.

End WriterProofs.
