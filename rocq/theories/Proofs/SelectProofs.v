From Coq Require Import ZArith List Bool String Lia Permutation.
From Coq Require Import List.
From Verif Require Import Lib.Base Lib.Floats Model.Flag Model.Symmetrize Model.Interp
  Model.SliceInputs Spec.FlagSpec Spec.InterpSpec
  Proofs.BaseFacts Proofs.FlagProofs Proofs.InterpProofs Proofs.EdgeCopyProofs
  Proofs.SliceInputsProofs Spec.SliceInputsSpec.
Import ListNotations.
Open Scope list_scope.
Open Scope Z_scope.

Lemma Forall2_len {A B} (P : A -> B -> Prop) l l' : Forall2 P l l' -> length l = length l'.
Proof. induction 1; cbn; congruence. Qed.

Lemma pick_cons {A} b m marks (a : A) l :
  pick b (m :: marks) (a :: l) = if Bool.eqb m b then a :: pick b marks l else pick b marks l.
Proof. unfold pick. cbn [combine filter fst]. destruct (Bool.eqb m b); reflexivity. Qed.

Lemma pick_perm {A} (l : list A) : forall marks, length marks = length l ->
  Permutation l (pick true marks l ++ pick false marks l).
Proof.
  induction l as [|a l IH]; intros [|m marks] E; try discriminate; [constructor|].
  rewrite !pick_cons. cbn in E. specialize (IH marks ltac:(lia)). destruct m; cbn [Bool.eqb].
  - cbn. now constructor.
  - rewrite IH at 1. apply Permutation_middle.
Qed.

Section P.
Context {F : Type} `{FO : FloatOps F} {RNG : Type}.
Context (rotate : F -> img F -> img F).
Context (normal : RNG -> nat -> F -> list F * RNG).
Context (normal2 : RNG -> Z -> Z -> (Z -> Z -> F) * RNG).
Context (interpolator : list (Z * Z) -> list F -> result (Z * Z -> F)).
Context (median : list F -> F).
Context (measure_fwhm : img F -> F).
Context (outliers : list (img F) -> list (img F) -> nat -> (Z -> Z -> F) * (Z -> Z -> F)).

Notation sl := (se_slice (F := F)).
Notation process := (process_slice rotate normal normal2 interpolator median measure_fwhm).
Notation process_list := (process_all rotate normal normal2 interpolator median measure_fwhm).
Notation build := (build_slice_inputs rotate normal normal2 interpolator median measure_fwhm
                     outliers).
Implicit Types cf : config (F := F).
Implicit Types srcs : list (se_source (F := F)).
Implicit Types src : se_source (F := F).

(** ** Identity of a slice *)
Definition ident (s : sl) : Z * Z * Z * Z * Z * Z * Z :=
  (sl_image_id s, sl_x_start s, sl_y_start s, sl_box_size s,
   sl_psf_x_start s, sl_psf_y_start s, sl_psf_box_size s).

Definition vslice (v : verdict (F := F)) : sl :=
  match v with Used u _ => u_slice u | NotUsed s _ => s end.
Definition is_used (v : verdict (F := F)) : bool :=
  match v with Used _ _ => true | NotUsed _ _ => false end.

Lemma process_ident cf mg s p rng v rng' :
  process cf mg s p rng = Ok (v, rng') -> ident (vslice v) = ident s.
Proof.
  unfold process_slice. intros E. apply bind_ok in E as (g & _ & E).
  apply bind_ok in E as (s' & Es & E).
  assert (Hi : ident s' = ident s).
  { rewrite (symmetrize_slice_fields _ _ _ _ _ Es). reflexivity. }
  apply bind_ok in E as (e & _ & E). cbv zeta in E.
  destruct (_ || p).
  - apply Ok_inj in E. apply pair_equal_spec in E as [<- _]. exact Hi.
  - apply bind_ok in E as ([[[im ns] pm] rng1] & _ & E).
    apply bind_ok in E as ([[[[[im2 ns2] w2] b2] pm2] skip] & _ & E).
    destruct skip; [injection E as <- _; exact Hi|].
    apply bind_ok in E as ([out x] & _ & E).
    destruct out as [[im3 ns3]|]; [|injection E as <- _; exact Hi].
    apply bind_ok in E as (mk & _ & E).
    destruct (fleb _ _); [injection E as <- _; exact Hi|].
    apply bind_ok in E as (wt & _ & E). apply Ok_inj in E.
    apply pair_equal_spec in E as [<- _]. exact Hi.
Qed.

Lemma lor_nonzero a k : 0 <= k -> Z.lor a (2 ^ k) <> 0.
Proof.
  intros Hk E. assert (C : Z.testbit (Z.lor a (2 ^ k)) k = true).
  { rewrite Z.lor_spec, Z.pow2_bits_true by assumption. apply orb_true_r. }
  rewrite E, Z.bits_0 in C. discriminate.
Qed.

Lemma process_flags cf mg s p rng s' fl rng' :
  process cf mg s p rng = Ok (NotUsed s' fl, rng') -> fl <> 0.
Proof.
  unfold process_slice. intros E. apply bind_ok in E as (g & _ & E).
  apply bind_ok in E as (s1 & Es & E).
  apply bind_ok in E as (e & _ & E). cbv zeta in E.
  destruct (e || _ || _ || p) eqn:Es'.
  - set (h := slice_has_flags _ _) in *. set (m := fleb _ _) in *. clearbody h m.
    apply Ok_inj in E. apply pair_equal_spec in E as [E _].
    assert (Hf : forall a b c d : Z, NotUsed (F:=F) s1 a = NotUsed s' b -> a = b)
      by (intros; congruence).
    apply (Hf _ _ 0 0) in E. rewrite <- E.
    pose proof (fun k Hk => first_flags e h m p k Hk) as B. cbv zeta in B.
    intros Z0. rewrite Z0 in B.
    destruct e; [specialize (B 0); cbn in B; specialize (B ltac:(lia)); discriminate|].
    destruct h; [specialize (B 1); cbn in B; specialize (B ltac:(lia)); discriminate|].
    destruct m; [specialize (B 2); cbn in B; specialize (B ltac:(lia)); discriminate|].
    destruct p; [specialize (B 5); cbn in B; specialize (B ltac:(lia)); discriminate|].
    discriminate.
  - clear Es'. apply bind_ok in E as ([[[im ns] pm] rng1] & _ & E).
    apply bind_ok in E as ([[[[[im2 ns2] w2] b2] pm2] skip] & _ & E).
    destruct skip; [injection E as _ <- _; discriminate|].
    apply bind_ok in E as ([out x] & _ & E).
    destruct out as [[im3 ns3]|]; [|injection E as _ <- _; discriminate].
    apply bind_ok in E as (mk & _ & E).
    destruct (fleb _ _); [injection E as _ <- _; discriminate|].
    apply bind_ok in E as (wt & _ & E). discriminate.
Qed.

Lemma process_all_facts cf mg l : forall rng vs rng',
  process_list cf mg l rng = Ok (vs, rng') ->
  Forall2 (fun sp v => ident (vslice v) = ident (fst sp)) l vs /\
  Forall (fun v => match v with NotUsed _ fl => fl <> 0 | _ => True end) vs.
Proof.
  induction l as [|[s p] l IH]; intros rng vs rng' E; cbn [process_all] in E.
  - injection E as <- <-. auto.
  - apply bind_ok in E as ([v r1] & Ev & E). apply bind_ok in E as ([vs1 r2] & Evs & E).
    injection E as <- <-. destruct (IH _ _ _ Evs) as [I1 I2]. split; constructor; try assumption.
    + exact (process_ident _ _ _ _ _ _ _ Ev).
    + destruct v; [exact I|]. exact (process_flags _ _ _ _ _ _ _ _ Ev).
Qed.

(** ** The rough cut *)
Lemma rough_cut_spec (srcs : list (se_source (F := F))) : forall poss, rough_cut srcs = Ok poss ->
  Forall2 cut_from
    (filter candidate srcs) poss.
Proof.
  induction srcs as [|s srcs IH]; intros poss E; cbn [rough_cut] in E.
  - injection E as <-. constructor.
  - cbn [filter]. unfold candidate at 1.
    destruct ((src_image_flags s =? 0) && src_contains_radec s && src_contains_bounds s).
    + apply bind_ok in E as (sl & Es & E). apply bind_ok in E as (rest & Er & E).
      injection E as <-. constructor; [split; auto|]. now apply IH.
    + now apply IH.
Qed.

Lemma put_pixels_nth k new (l : list (sl * bool)) i s p :
  nth_error l i = Some (s, p) ->
  nth_error (put_pixels k new l) i =
    Some (set_pixels s
         (mkimg (nrows (sl_image s)) (ncols (sl_image s)) (fst (new (k + i)%nat)))
         (mkimg (nrows (sl_weight s)) (ncols (sl_weight s)) (snd (new (k + i)%nat))), p).
Proof.
  revert k i. induction l as [|[s0 p0] l IH]; intros k [|i] H; cbn [nth_error put_pixels] in *;
    try discriminate.
  - injection H as -> ->. rewrite Nat.add_0_r. reflexivity.
  - rewrite (IH (S k) i H). replace (S k + i)%nat with (k + S i)%nat by lia. reflexivity.
Qed.

Lemma put_pixels_length k new (l : list (sl * bool)) : length (put_pixels k new l) = length l.
Proof. revert k. induction l as [|[s p] l IH]; intros k; cbn [put_pixels length]; auto. Qed.

Lemma reject_outliers_spec (poss : list (sl * bool)) :
  outliers_replaced outliers poss (reject_outliers outliers poss).
Proof.
  split; [apply put_pixels_length|]. intros k s p H. unfold reject_outliers.
  rewrite (put_pixels_nth 0 _ _ _ _ _ H). reflexivity.
Qed.

Lemma put_pixels_facts k new (l : list (sl * bool)) :
  Forall2 (fun sp sp' => ident (fst sp') = ident (fst sp) /\ snd sp' = snd sp /\
     sl_bmask (fst sp') = sl_bmask (fst sp) /\ sl_noises (fst sp') = sl_noises (fst sp) /\
     sl_psf (fst sp') = sl_psf (fst sp) /\
     forall nr nc, shaped nr nc (fst sp) -> shaped nr nc (fst sp'))
    l (put_pixels k new l).
Proof.
  revert k. induction l as [|[s p] l IH]; intros k; cbn [put_pixels]; constructor.
  - repeat (split; [reflexivity|]). intros nr nc (H1 & H2 & [I1 I2] & [W1 W2] & B & N).
    split; [assumption|]. split; [assumption|]. split; [split; assumption|].
    split; [split; assumption|]. split; assumption.
  - apply IH.
Qed.

(** Everything the selection does, as a relation. *)
Theorem build_trace cf mg srcs rng out rng' :
  build cf mg srcs rng = Ok (out, rng') ->
  exists poss,
    Forall2 cut_from
      (filter candidate srcs) poss /\
    (Forall (fun sp => snd sp = true) poss -> out = mkinputs [] [] [] [] /\ rng' = rng) /\
    (Exists (fun sp => snd sp = false) poss ->
     exists vs, 
       process_list cf mg (if cf_reject_outliers cf then reject_outliers outliers poss else poss)
         rng = Ok (vs, rng') /\
       out = mkinputs (used_of vs) (normalise (weights_of vs)) (not_used_of vs) (flags_of vs)).
Proof.
  unfold build_slice_inputs. intros E. apply bind_ok in E as (poss & Ep & E).
  exists poss. split; [now apply rough_cut_spec|].
  assert (Hall : forallb snd poss = true <-> Forall (fun sp => snd sp = true) poss).
  { rewrite forallb_forall, Forall_forall. reflexivity. }
  split.
  - intros Ha. apply Hall in Ha. rewrite Ha, orb_true_r in E. injection E as <- <-. auto.
  - intros Hex. assert (Hf : forallb snd poss = false).
    { apply not_true_iff_false. intros C. apply Hall in C. apply Exists_exists in Hex as (x & Hin & Hx).
      rewrite Forall_forall in C. specialize (C x Hin). congruence. }
    rewrite Hf, orb_false_r in E.
    assert (Hne : match poss with [] => true | _ => false end = false).
    { destruct poss; [inversion Hex|reflexivity]. }
    rewrite Hne in E. apply bind_ok in E as ([vs r1] & Ev & E). injection E as <- <-.
    exists vs. auto.
Qed.

(** ** Epoch accounting *)
Lemma describes_ident id s s' fl w :
  ident s' = ident s -> describes id (epoch_row_of id s' fl w) s.
Proof. unfold ident. intros [= E1 E2 E3 E4 E5 E6 E7]. unfold describes. cbn. auto 10. Qed.

Lemma lengths_used (vs : list (verdict (F := F))) :
  length (used_of vs) = length (weights_of vs) /\ length (not_used_of vs) = length (flags_of vs).
Proof. induction vs as [|[u w|s f] vs [I1 I2]]; cbn; auto. Qed.

Theorem epochs_spec cf mg srcs rng out rng' id :
  build cf mg srcs rng = Ok (out, rng') ->
  let cand := filter candidate srcs in
  let rows := make_epochs_info id (si_weights out) (si_slices out) (si_not_used out)
                (si_flags out) in
  exists slices,
    Forall2 (fun (src : se_source (F := F)) s => src_slice src = Ok s) cand slices /\
    (Forall (fun src => src_psf_flag src = true) cand -> rows = []) /\
    (Exists (fun src => src_psf_flag src = false) cand ->
     exists marks used_rows unused_rows,
       length marks = length slices /\
       rows = used_rows ++ unused_rows /\
       Forall2 (describes id) used_rows (pick true marks slices) /\
       Forall2 (describes id) unused_rows (pick false marks slices) /\
       Forall (fun r => er_flags r = 0) used_rows /\
       map er_weight used_rows = si_weights out /\
       Forall (fun r => er_flags r <> 0 /\ er_weight r = fzero) unused_rows /\
       map er_flags unused_rows = si_flags out).
Proof.
  intros E cand rows. destruct (build_trace _ _ _ _ _ _ E) as (poss & Hp & Hbad & Hgood).
  exists (map fst poss). split; [|split].
  - clear - Hp. induction Hp as [|x y l l' [H1 H2] _ IH]; constructor; assumption.
  - intros Ha. destruct Hbad as [-> _]; [|reflexivity].
    clear - Hp Ha. induction Hp as [|x y l l' [H1 H2] _ IH]; [constructor|].
    inversion Ha; subst. constructor; [congruence|auto].
  - intros Hex. destruct Hgood as (vs & Ev & Eo).
    { clear - Hp Hex. induction Hp as [|x y l l' [H1 H2] _ IH]; [inversion Hex|].
      inversion Hex; subst; [left; congruence|right; auto]. }
    destruct (process_all_facts _ _ _ _ _ _ Ev) as [Hid Hfl].
    assert (Hid' : Forall2 (fun sp v => ident (vslice v) = ident (fst sp)) poss vs).
    { destruct (cf_reject_outliers cf); [|assumption].
      pose proof (put_pixels_facts 0 (outliers (map (fun sp => sl_image (fst sp)) poss)
                         (map (fun sp => sl_weight (fst sp)) poss)) poss) as Hput.
      unfold reject_outliers in Hid. clear - Hid Hput. revert vs Hid.
      induction Hput as [|x y l l' [H1 _] _ IH]; intros vs Hid;
        inversion Hid; subst; constructor; [congruence|auto]. }
    exists (map is_used vs),
      (map (fun wu => epoch_row_of id (u_slice (snd wu)) 0 (fst wu))
           (combine (si_weights out) (used_of vs))),
      (map (fun fs => epoch_row_of id (snd fs) (fst fs) fzero)
           (combine (flags_of vs) (not_used_of vs))).
    destruct (lengths_used vs) as [L1 L2].
    assert (L1' : length (si_weights out) = length (used_of vs)).
    { subst out. cbn. unfold normalise. rewrite map_length. lia. }
    split; [rewrite !map_length; symmetry; eapply Forall2_len; exact Hid'|].
    split; [subst rows out; reflexivity|].
    split; [|split; [|split; [|split; [|split]]]].
    + clear - Hid' L1'. revert L1'. generalize (si_weights out).
      induction Hid' as [|[s p] v l vs Hi _ IH]; intros ws L; [destruct ws; constructor|].
      cbn [map]. rewrite pick_cons. destruct v as [u w|s' f]; cbn [is_used Bool.eqb].
      * destruct ws as [|w0 ws]; [discriminate|]. constructor.
        -- apply describes_ident. exact Hi.
        -- apply IH. apply eq_add_S. exact L.
      * apply IH. exact L.
    + clear - Hid'. induction Hid' as [|[s p] v l vs Hi _ IH]; [constructor|].
      cbn [map]. rewrite pick_cons. destruct v as [u w|s' f]; cbn [is_used Bool.eqb].
      * exact IH.
      * constructor; [apply describes_ident; exact Hi|exact IH].
    + apply Forall_forall. intros r Hr. apply in_map_iff in Hr as (x & <- & _). reflexivity.
    + rewrite map_map. cbn. now apply map_fst_combine.
    + clear - Hfl. induction Hfl as [|v vs Hv _ IH]; [constructor|].
      destruct v; cbn; [exact IH|]. constructor; [cbn; auto|exact IH].
    + rewrite map_map. cbn. subst out. cbn. apply map_fst_combine. lia.
Qed.

(** The slices that are judged are cut out of candidates. *)
Lemma rejected_cut cf srcs poss :
  Forall2 cut_from (filter candidate srcs) poss ->
  forall s p, In (s, p) (if cf_reject_outliers cf then reject_outliers outliers poss else poss) ->
  cut_out_of srcs s.
Proof.
  intros Hp s p Hin.
  assert (Hx : forall (l : list (se_source (F := F))) l', Forall2 cut_from l l' -> forall x : sl * bool, In x l' ->
              exists src, In src l /\ src_slice src = Ok (fst x)).
  { clear. induction 1 as [|a b l l' [H1 H2] _ IH]; intros x [].
    - subst. exists a. split; [now left|assumption].
    - destruct (IH x H) as (src & Hs & He). exists src. split; [now right|assumption]. }
  assert (Hin0 : exists s0, In (s0, p) poss /\ ident s = ident s0 /\ forall nr nc, shaped nr nc s0 -> shaped nr nc s).
  { destruct (cf_reject_outliers cf); [|exists s; auto]. unfold reject_outliers in Hin.
    pose proof (put_pixels_facts 0 (outliers (map (fun sp => sl_image (fst sp)) poss)
                         (map (fun sp => sl_weight (fst sp)) poss)) poss) as Hput.
    revert Hin. clear - Hput. induction Hput as [|x y l l' (H1 & H2 & _ & _ & _ & H6) _ IH];
      intros Hin; [destruct Hin|].
    destruct Hin as [->|Hin].
    - destruct x as [s0 p0]. cbn [fst snd] in *. subst p0. exists s0. split; [now left|auto].
    - destruct (IH Hin) as (s0 & Hs0 & He). exists s0. split; [now right|assumption]. }
  destruct Hin0 as (s0 & Hin0 & Hid & Hs). destruct (Hx _ _ Hp _ Hin0) as (src & Hsrc & E).
  apply filter_In in Hsrc as [Hsrc Hc]. exists src, s0. unfold ident in Hid.
  injection Hid as E1 E2 E3 E4 _ _ _. auto 10.
Qed.

(** ** Judgement of a whole list *)
Theorem build_judged cf mg srcs rng out rng' :
  (forall r n x, length (fst (normal r n x)) = n) ->
  (forall src s, In src srcs -> src_slice src = Ok s -> exists nr nc, shaped nr nc s) ->
  (forall f s g nr nc, mg = Some f -> shaped nr nc s -> cut_out_of srcs s -> f s = Ok g -> shape_is nr nc g) ->
  build cf mg srcs rng = Ok (out, rng') ->
  exists poss,
    Forall2 cut_from
      (filter candidate srcs) poss /\
    (Forall (fun sp => snd sp = true) poss -> out = mkinputs [] [] [] [] /\ rng' = rng) /\
    (Exists (fun sp => snd sp = false) poss ->
     exists vs,
       judged_all normal normal2 interpolator median measure_fwhm rotate cf mg
         (if cf_reject_outliers cf then reject_outliers outliers poss else poss) rng vs rng' /\
       out = mkinputs (used_of vs) (normalise (weights_of vs)) (not_used_of vs) (flags_of vs)).
Proof.
  intros Hn Hsh Hg E. destruct (build_trace _ _ _ _ _ _ E) as (poss & Hp & Hbad & Hgood).
  exists poss. split; [assumption|]. split; [assumption|]. intros Hex.
  destruct (Hgood Hex) as (vs & Ev & Eo). exists vs. split; [|assumption].
  apply (process_all_judged rotate normal normal2 interpolator median measure_fwhm outliers); [assumption| |exact Ev].
  intros s p Hin.
  destruct (rejected_cut cf srcs poss Hp s p Hin) as (src & s0 & K1 & K2 & K3 & K).
  destruct (Hsh src s0 K1 K3) as (nr & nc & Hs0).
  assert (Hs : shaped nr nc s) by (apply K; exact Hs0).
  exists nr, nc. split; [assumption|].
  intros f g Hf Hfg. apply (Hg f s g nr nc Hf Hs); [|exact Hfg]. exists src, s0. auto.
Qed.

Lemma judged_all_In cf mg l rng vs rng' :
  judged_all normal normal2 interpolator median measure_fwhm rotate cf mg l rng vs rng' ->
  forall v, In v vs -> exists s p g s' r r',
    In (s, p) l /\
    match mg with
    | Some f => exists g', f s = Ok g' /\ g = Some g'
    | None => g = None end /\
    symmetrize_slice rotate cf g s = Ok s' /\
    judged normal normal2 interpolator median measure_fwhm cf g s' p r v r'.
Proof.
  induction 1 as [|s p l g s' v vs r r1 r2 Hm Hs Hj _ IH]; intros v0 [].
  - subst. exists s, p, g, s', r, r1. split; [now left|]. auto.
  - destruct (IH v0 H) as (s0 & p0 & g0 & s1 & ra & rb & Hin & Hrest).
    exists s0, p0, g0, s1, ra, rb. split; [now right|exact Hrest].
Qed.

Lemma reject_shaped (poss : list (sl * bool)) :
  (forall s p, In (s, p) poss -> exists nr nc, shaped nr nc s) ->
  forall s p, In (s, p) (reject_outliers outliers poss) ->
    exists s0 nr nc, In (s0, p) poss /\ ident s = ident s0 /\ shaped nr nc s.
Proof.
  unfold reject_outliers.
  pose proof (put_pixels_facts 0 (outliers (map (fun sp => sl_image (fst sp)) poss)
                         (map (fun sp => sl_weight (fst sp)) poss)) poss) as Hput.
  induction Hput as [|x y l l' (H1 & H2 & _ & _ & _ & H6) _ IH]; intros Hps s p Hin;
    [destruct Hin|].
  destruct Hin as [->|Hin].
  - destruct x as [s0 p0]. cbn [fst snd] in *. subst p0.
    destruct (Hps s0 p (or_introl eq_refl)) as (nr & nc & Hs).
    exists s0, nr, nc. split; [now left|]. split; [assumption|]. apply H6. exact Hs.
  - destruct (IH (fun s1 p1 H => Hps s1 p1 (or_intror H)) s p Hin) as (s0 & nr & nc & K & Hr).
    exists s0, nr, nc. split; [now right|assumption].
Qed.

(** Every verdict of a successful selection, with what it was based on. *)
Theorem build_verdicts cf mg srcs rng out rng' :
  (forall r n x, length (fst (normal r n x)) = n) ->
  (forall src s, In src srcs -> src_slice src = Ok s -> exists nr nc, shaped nr nc s) ->
  (forall f s g nr nc, mg = Some f -> shaped nr nc s -> cut_out_of srcs s -> f s = Ok g -> shape_is nr nc g) ->
  build cf mg srcs rng = Ok (out, rng') ->
  exists vs,
    out = mkinputs (used_of vs) (normalise (weights_of vs)) (not_used_of vs) (flags_of vs) /\
    forall v, In v vs -> exists src s0 s g s' r r' nr nc,
      In src (filter candidate srcs) /\ src_slice src = Ok s0 /\
      ident s = ident s0 /\ shaped nr nc s /\ shaped nr nc s' /\
      (cf_reject_outliers cf = false -> s = s0) /\
      match mg with
      | Some f => exists g', f s = Ok g' /\ g = Some g'
      | None => g = None end /\
      symmetrize_slice rotate cf g s = Ok s' /\
      judged normal normal2 interpolator median measure_fwhm cf g s' (src_psf_flag src) r v r'.
Proof.
  intros Hn Hsh Hg E.
  destruct (build_judged _ _ _ _ _ _ Hn Hsh Hg E) as (poss & Hp & Hbad & Hgood).
  destruct (forallb snd poss) eqn:Ea.
  { rewrite forallb_forall in Ea. destruct Hbad as [-> _]; [now apply Forall_forall|].
    exists []. split; [reflexivity|]. intros v []. }
  destruct Hgood as (vs & Hj & Eo).
  { clear - Ea. induction poss as [|[s p] l IH]; [discriminate|]. cbn in Ea.
    destruct p; [right; apply IH; exact Ea|left; reflexivity]. }
  exists vs. split; [assumption|]. intros v Hv.
  destruct (judged_all_In _ _ _ _ _ _ Hj _ Hv) as (s & p & g & s' & r & r' & Hin & Hm & Hs & Hju).
  assert (Hx : forall (l : list se_source) l', Forall2 cut_from l l' -> forall x : sl * bool, In x l' ->
              exists src, In src l /\ src_slice src = Ok (fst x) /\ src_psf_flag src = snd x).
  { clear. induction 1 as [|a b l l' [H1 H2] _ IH]; intros x [].
    - subst. exists a. split; [now left|auto].
    - destruct (IH x H) as (src & Hs & He). exists src. split; [now right|assumption]. }
  assert (Hps : forall s p, In (s, p) poss -> exists nr nc, shaped nr nc s).
  { intros s1 p1 Hin1. destruct (Hx _ _ Hp _ Hin1) as (src & Hs1 & He & _).
    apply filter_In in Hs1 as [Hs1 _]. exact (Hsh src s1 Hs1 He). }
  assert (Hpin : exists s0 nr nc, In (s0, p) poss /\ ident s = ident s0 /\ shaped nr nc s /\
                   (cf_reject_outliers cf = false -> s = s0)).
  { destruct (cf_reject_outliers cf).
    - destruct (reject_shaped poss Hps s p Hin) as (s0 & nr & nc & K1 & K2 & K3).
      exists s0, nr, nc. repeat (split; [assumption|]). discriminate.
    - destruct (Hps s p Hin) as (nr & nc & K). exists s, nr, nc. auto. }
  destruct Hpin as (s0 & nr & nc & Hin0 & Hid & Hshp & Heq).
  destruct (Hx _ _ Hp _ Hin0) as (src & Hsrc & Es0 & Ep0). cbn [fst snd] in Es0, Ep0. subst p.
  exists src, s0, s, g, s', r, r', nr, nc. do 4 (split; [assumption|]).
  split; [exact (symmetrize_slice_shape rotate _ _ _ _ _ _ Hs Hshp)|]. auto.
Qed.

(** ** What a used image looks like *)
Theorem used_acceptable cf mg srcs rng out rng' :
  (forall r n x, length (fst (normal r n x)) = n) ->
  (forall src s, In src srcs -> src_slice src = Ok s -> exists nr nc, shaped nr nc s) ->
  (forall f s g nr nc, mg = Some f -> shaped nr nc s -> cut_out_of srcs s -> f s = Ok g -> shape_is nr nc g) ->
  build cf mg srcs rng = Ok (out, rng') ->
  forall u, In u (si_slices out) ->
  exists src s0 s1 g,
    In src srcs /\ src_image_flags src = 0 /\ src_contains_radec src = true /\
    src_contains_bounds src = true /\ src_psf_flag src = false /\
    src_slice src = Ok s0 /\ sl_image_id (u_slice u) = sl_image_id s0 /\
    sl_image_id s1 = sl_image_id s0 /\ sl_x_start s1 = sl_x_start s0 /\
    sl_y_start s1 = sl_y_start s0 /\ sl_box_size s1 = sl_box_size s0 /\
    match mg with
    | Some f => exists g', f s1 = Ok g' /\ g = Some g'
    | None => g = None end /\
    let w := sl_weight (u_slice u) in
    let b := sl_bmask (u_slice u) in
    ~ some_pixel_flagged b (cf_bad_image_flags cf) /\
    (cf_copy_masked_edges cf = false -> ~ full_edge_unusable w b (cf_spline_flags cf)) /\
    ~ fraction_at_least (nrows w) (ncols w) g
        (unusable w b (Z.lor (cf_spline_flags cf) (cf_noise_flags cf)))
        (cf_max_masked_fraction cf) /\
    ~ fraction_at_least (nrows w) (ncols w) g (fun r c => px (u_pmask u) r c <> 0)
        (cf_max_masked_fraction cf).
Proof.
  intros Hn Hsh Hg E u Hu.
  destruct (build_judged _ _ _ _ _ _ Hn Hsh Hg E) as (poss & Hp & Hbad & Hgood).
  destruct (forallb snd poss) eqn:Ea.
  { rewrite forallb_forall in Ea. destruct Hbad as [-> _]; [|destruct Hu].
    apply Forall_forall. exact Ea. }
  destruct Hgood as (vs & Hj & Eo).
  { clear - Ea. induction poss as [|[s p] l IH]; [discriminate|]. cbn in Ea.
    destruct p; [right; apply IH; exact Ea|left; reflexivity]. }
  subst out. cbn in Hu. unfold used_of in Hu. apply in_flat_map in Hu as (v & Hv & Hu).
  destruct v as [u' wt|]; [|destruct Hu]. destruct Hu as [->|[]].
  destruct (judged_all_In _ _ _ _ _ _ Hj _ Hv) as (s & p & g & s' & r & r' & Hin & Hm & Hs & Hju).
  inversion Hju as [| | | |im ns r1 im2 ns2 w2 b2 im3 ns3 pm u0 wt0 Hok Hfill Hprep Hnfe Hint Hpm Hfr Hint2 Hwt]; subst.
  assert (Hpok : p = false).
  { destruct p; [|reflexivity]. exfalso. apply (Hok 5). unfold failed. auto. }
  subst p.
  assert (Hpin : exists s0, In (s0, false) poss /\ ident s = ident s0).
  { destruct (cf_reject_outliers cf); [|exists s; auto]. unfold reject_outliers in Hin.
    pose proof (put_pixels_facts 0 (outliers (map (fun sp => sl_image (fst sp)) poss)
                         (map (fun sp => sl_weight (fst sp)) poss)) poss) as Hput.
    revert Hin. clear - Hput. induction Hput as [|x y l l' (H1 & H2 & _) _ IH]; intros Hin;
      [destruct Hin|].
    destruct Hin as [->|Hin].
    - destruct x as [s0 p0]. cbn in H1, H2. subst p0. exists s0. split; [now left|assumption].
    - destruct (IH Hin) as (s0 & Hs0 & He). exists s0. split; [now right|assumption]. }
  destruct Hpin as (s0 & Hin0 & Hid).
  assert (Hx : forall (l : list se_source) l', Forall2 cut_from l l' -> forall x : sl * bool, In x l' ->
              exists src, In src l /\ src_slice src = Ok (fst x) /\ src_psf_flag src = snd x).
  { clear. induction 1 as [|a b l l' [H1 H2] _ IH]; intros x [].
    - subst. exists a. split; [now left|auto].
    - destruct (IH x H) as (src & Hs & He). exists src. split; [now right|assumption]. }
  destruct (Hx _ _ Hp _ Hin0) as (src & Hsrc & Es0 & Ep0). apply filter_In in Hsrc as [Hsrc Hc].
  unfold candidate in Hc. rewrite !andb_true_iff, Z.eqb_eq in Hc. destruct Hc as [[Hc1 Hc2] Hc3].
  destruct Hint2 as [Iu Ipm _ _ _ _ _]. 
  assert (Hi : sl_image_id s = sl_image_id s0) by (unfold ident in Hid; congruence).
  exists src, s0, s, g. do 6 (split; [assumption|]).
  split.
  { rewrite Iu. cbn. rewrite (symmetrize_slice_fields _ _ _ _ _ Hs). cbn. exact Hi. }
  split; [exact Hi|]. do 3 (split; [unfold ident in Hid; congruence|]). split; [exact Hm|].
  rewrite Iu. cbn [sl_weight sl_bmask]. rewrite Ipm. cbv zeta.
  split; [intros C; apply (Hok 1); unfold failed; auto|].
  split; [intros Hc C; apply (Hok 0); unfold failed; auto|].
  split; [intros C; apply (Hok 2); unfold failed; auto 6|exact Hfr].
Qed.

(** ** Pixel mask of a used image *)
Section Values.
Context (eq_sym : forall x y : F, feqb x y = true -> feqb y x = true).
Context (eq_trans : forall x y z : F, feqb x y = true -> feqb y z = true -> feqb x z = true).

Lemma filled_all_nth w b mx flags l l' r r' :
  filled_all normal2 mx flags w b l l' r r' ->
  forall k a, nth_error l k = Some a -> exists a', nth_error l' k = Some a' /\
    exists r0 r1, filled_one normal2 mx flags w b a a' r0 r1.
Proof.
  induction 1 as [|a a' l l' r r1 r2 H1 _ IH]; intros k x Hk.
  - destruct k; discriminate.
  - destruct k as [|k]; cbn in Hk.
    + injection Hk as <-. exists a'. split; [reflexivity|eauto].
    + apply IH. exact Hk.
Qed.

Theorem unmarked_unchanged cf g s p rng u wt rng' nr nc :
  shaped nr nc s ->
  judged normal normal2 interpolator median measure_fwhm cf g s p rng (Used u wt) rng' ->
  forall r c, inb (sl_image s) r c -> px (u_pmask u) r c = 0 ->
  feqb (px (sl_image (u_slice u)) r c) (px (sl_image s) r c) = true /\
  forall k a b, nth_error (sl_noises s) k = Some a -> nth_error (sl_noises (u_slice u)) k = Some b ->
    feqb (px b r c) (px a r c) = true.
Proof.
  intros (H1 & H2 & [I1 I2] & [W1 W2] & [B1 B2] & Hns) Hju r c Hin Hz.
  inversion Hju as [| | | |im ns r1 im2 ns2 w2 b2 im3 ns3 pm u0 wt0 Hok Hfill Hprep Hnfe Hint Hpm Hfr Hint2 Hwt]; subst.
  destruct Hint2 as [Iu Ipm _ _ _ _ _]. rewrite Iu. cbn [sl_image sl_noises].
  rewrite Ipm in Hz. destruct Hpm as [[P1 P2] Hpm].
  assert (Hinp : inb pm r c) by (unfold inb in *; rewrite P1, P2; lia).
  destruct (Hpm r c Hinp) as [_ Hbits]. rewrite Hz in Hbits.
  assert (Hno : forall k, 0 <= k -> ~ marked cf s im ns im2 ns2 w2 b2 im3 ns3 r c k).
  { intros k Hk C. apply Hbits in C; [|assumption]. rewrite Z.bits_0 in C. discriminate. }
  assert (Hnf : ~ flagged (cf_noise_flags cf) (px (sl_bmask s) r c)).
  { intros C. apply (Hno 28); [lia|]. left. auto. }
  assert (Hu : forall x y : F, ~ unequal x y -> feqb x y = true).
  { intros x y Hxy. unfold unequal in Hxy. now destruct (feqb x y). }
  assert (Hi3 : feqb (px im3 r c) (px im2 r c) = true).
  { apply Hu. intros C. apply (Hno 27); [lia|]. right. auto. }
  assert (Hi2 : cf_copy_masked_edges cf = true -> feqb (px im r c) (px im2 r c) = true).
  { intros Hc. apply Hu. intros C. apply (Hno 27); [lia|]. right. auto. }
  assert (Hn3 : forall k a b, nth_error ns2 k = Some a -> nth_error ns3 k = Some b ->
                 feqb (px b r c) (px a r c) = true).
  { intros k a b Ha Hb. apply Hu. intros C. apply (Hno 27); [lia|]. right. split; [reflexivity|].
    right; right; left. exists k, a, b. auto. }
  assert (Hn2 : cf_copy_masked_edges cf = true ->
                forall k a b, nth_error ns k = Some a -> nth_error ns2 k = Some b ->
                 feqb (px b r c) (px a r c) = true).
  { intros Hc k a b Ha Hb. apply Hu. intros C. apply (Hno 27); [lia|]. right. split; [reflexivity|].
    left. split; [assumption|]. right. exists k, a, b. auto. }
  assert (Him : px im r c = px (sl_image s) r c /\
     forall k a, nth_error (sl_noises s) k = Some a ->
       exists a', nth_error ns k = Some a' /\ px a' r c = px a r c).
  { destruct Hfill as [(_ & -> & -> & _)|(_ & pos & mx & _ & _ & Hall)].
    - split; [reflexivity|]. intros k a Ha. exists a. auto.
    - split.
      + inversion Hall as [|? ? ? ? ? ? ? (d & _ & _ & _ & Hf) _]; subst.
        apply (Hf r c); assumption.
      + intros k a Ha. destruct (filled_all_nth _ _ _ _ _ _ _ _ Hall (S k) a Ha)
          as (a' & Ha' & r0 & r1' & (d & _ & _ & _ & Hf)).
        exists a'. split; [exact Ha'|]. apply (Hf r c); [|assumption].
        rewrite Forall_forall in Hns. destruct (Hns a (nth_error_In _ _ Ha)).
        unfold inb in *. rewrite H, H0. lia. }
  destruct Him as [Him Hnn].
  assert (Hlen2 : forall k a, nth_error ns k = Some a -> nth_error ns3 k <> None ->
            exists a2, nth_error ns2 k = Some a2).
  { intros k a Ha Hb. destruct (nth_error ns2 k) as [a2|] eqn:E; [eauto|]. exfalso.
    unfold prepared in Hprep. destruct (cf_copy_masked_edges cf).
    - revert Hprep E Ha. 
      assert (Hl : forall im ns w b f es, copy_masked_edges_image_and_noise (F:=F) im ns w b f = Ok es ->
                 length (es_noises es) = length ns).
      { clear. assert (Hm : forall f (st : edge_state F), length (es_noises (es_map f st)) = length (es_noises st)).
        { intros f st. destruct st. cbn. now rewrite map_length. }
        assert (Hp : forall w b fl (st st' : edge_state F) i ii, edge_pass w b fl st i ii = Ok st' ->
                   length (es_noises st') = length (es_noises st)).
        { intros w b fl st st' i ii E. unfold edge_pass in E.
          repeat (match type of E with
          | bind ?m _ = Ok _ => let H := fresh in apply bind_ok in E as (? & H & E)
          end).
          cbv zeta in *.
          repeat match goal with
          | H : (if ?b then _ else _) = Ok _ |- _ => destruct b
          | H : match ?x with _ => _ end = Ok _ |- _ => destruct x; try discriminate
          | H : Ok _ = Ok _ |- _ => apply Ok_inj in H; subst
          end; rewrite ?Hm; reflexivity. }
        intros im ns w b f es E. unfold copy_masked_edges_image_and_noise in E.
        apply bind_ok in E as (st & E1 & E2). apply Hp in E1. apply Hp in E2. cbn in E1. congruence. }
      intros Hprep E Ha. apply Hl in Hprep. cbn in Hprep.
      apply nth_error_None in E. assert (Hs : nth_error ns k <> None) by congruence.
      apply nth_error_Some in Hs. lia.
    - destruct Hprep as (_ & -> & _). congruence. }
  split.
  - rewrite <- Him. unfold prepared in Hprep. destruct (cf_copy_masked_edges cf).
    + apply eq_trans with (px im2 r c); [assumption|]. apply eq_sym. auto.
    + destruct Hprep as (-> & _). assumption.
  - intros k a b Ha Hb. destruct (Hnn k a Ha) as (a1 & Ha1 & <-).
    destruct (Hlen2 k a1 Ha1) as (a2 & Ha2); [congruence|].
    unfold prepared in Hprep. destruct (cf_copy_masked_edges cf).
    + apply eq_trans with (px a2 r c); [eapply Hn3; eassumption|]. eapply Hn2; eauto.
    + destruct Hprep as (_ & -> & _). eapply Hn3; eassumption.
Qed.
End Values.

(** ** The masks after symmetrising with a list of angles *)
Lemma sym_angles_spec wo bo bf g l : forall w b w' b',
  sym_angles rotate wo bo bf g l w b = Ok (w', b') ->
  forall r c,
    ((exists a wr, In a l /\ symmetrize_weight rotate wo (Some a) g = Ok wr /\
        feqb (px wr r c) fzero = true) -> px w' r c = fzero) /\
    ((forall a wr, In a l -> symmetrize_weight rotate wo (Some a) g = Ok wr ->
        feqb (px wr r c) fzero = false) -> px w' r c = px w r c) /\
    (forall k, 0 <= k -> (Z.testbit (px b' r c) k = true <->
       Z.testbit (px b r c) k = true \/
       exists a br, In a l /\ symmetrize_bmask rotate bo (Some a) g (Some bf) = Ok br /\
         Z.testbit (px br r c) k = true)).
Proof.
  induction l as [|a l IH]; intros w b w' b' E r c; cbn [sym_angles] in E.
  - injection E as <- <-. split; [intros (a & wr & [] & _)|]. split; [reflexivity|].
    intros k Hk. split; [auto|]. intros [|(a & br & [] & _)]. assumption.
  - apply bind_ok in E as (wr & Ewr & E). apply bind_ok in E as (br & Ebr & E).
    destruct (IH _ _ _ _ E r c) as (J1 & J2 & J3). split; [|split].
    + intros (a0 & wr0 & [<-|Hin] & Ew0 & Hz).
      * assert (wr0 = wr) as -> by congruence.
        assert (Hd : (exists a wr, In a l /\ symmetrize_weight rotate wo (Some a) g = Ok wr /\
                        feqb (px wr r c) fzero = true) \/
                     (forall a wr, In a l -> symmetrize_weight rotate wo (Some a) g = Ok wr ->
                        feqb (px wr r c) fzero = false)).
        { clear. induction l as [|a l IH]; [right; intros ? ? []|].
          destruct IH as [(a0 & wr & Hin & Hw & Hz)|Hno].
          - left. exists a0, wr. split; [now right|auto].
          - destruct (symmetrize_weight rotate wo (Some a) g) as [wr|] eqn:Ew.
            + destruct (feqb (px wr r c) fzero) eqn:Ez.
              * left. exists a, wr. split; [now left|auto].
              * right. intros a0 wr0 [<-|Hin] Hw0; [congruence|]. now apply (Hno a0 wr0).
            + right. intros a0 wr0 [<-|Hin] Hw0; [congruence|]. now apply (Hno a0 wr0). }
        destruct Hd as [Hd|Hd]; [exact (J1 Hd)|]. rewrite (J2 Hd). cbn. now rewrite Hz.
      * apply J1. exists a0, wr0. auto.
    + intros Hno. rewrite J2.
      * cbn. rewrite (Hno a wr (or_introl eq_refl) Ewr). reflexivity.
      * intros a0 wr0 Hin. apply Hno. now right.
    + intros k Hk. rewrite (J3 k Hk). cbn. rewrite Z.lor_spec, orb_true_iff. split.
      * intros [[|]|(a0 & br0 & Hin & Hb & Ht)]; [auto|right; exists a, br; auto|].
        right. exists a0, br0. auto.
      * intros [|(a0 & br0 & [<-|Hin] & Hb & Ht)]; [auto| |].
        -- assert (br0 = br) as -> by congruence. auto.
        -- right. exists a0, br0. auto.
Qed.

(** ** The selection always comes to a decision *)
Lemma some_weight w b flags g mx nr nc :
  1 <= nr -> 1 <= nc -> shape_is nr nc w -> shape_is nr nc b -> opt_shape_is nr nc g ->
  fleb mx fone = true -> (forall n, 0 < n -> fleb mx (fdiv (fofZ n) (fofZ n)) = true) ->
  fleb mx (compute_masked_fraction w b flags g) = false ->
  exists r c, inb w r c /\ fleb (px w r c) fzero = false.
Proof.
  intros Hr Hc Hw Hb Hg Hone Hn Hf.
  assert (Hno : ~ fraction_at_least nr nc g (unusable w b flags) mx).
  { intros C. apply (masked_fraction_at_least w b flags g mx nr nc) in C; try assumption. congruence. }
  destruct (np_any (imap (fun x => negb (fleb x fzero)) w)) eqn:Ea.
  - apply np_any_spec in Ea as (r & c & Hin & Hp). exists r, c. split; [exact Hin|].
    cbn in Hp. now apply negb_true_iff in Hp.
  - exfalso. apply Hno.
    assert (Hall : forall r c, 0 <= r < nr -> 0 <= c < nc -> no_weight (px w r c)).
    { intros r c H1 H2. unfold no_weight. destruct (fleb (px w r c) fzero) eqn:E; [reflexivity|].
      assert (C : np_any (imap (fun x => negb (fleb x fzero)) w) = true).
      { apply np_any_spec. exists r, c. split; [destruct Hw; unfold inb; cbn; lia|].
        cbn. now rewrite E. }
      congruence. }
    destruct (counted_dec nr nc g Hr Hc Hg) as [Hex|Hnone]; [|left; auto].
    right. pose proof (np_count_counts
      (match g with Some g => imap negb g | None => full nr nc true end)
      (fun r c => counted g r c)) as Hd.
    assert (Hsh : nrows (match g with Some g => imap negb g | None => full nr nc true end) = nr /\
                  ncols (match g with Some g => imap negb g | None => full nr nc true end) = nc).
    { destruct g as [g|]; [exact Hg|split; reflexivity]. }
    destruct Hsh as [S1 S2]. rewrite S1, S2 in Hd.
    set (d := np_count _) in Hd. specialize (Hd ltac:(intros r c; unfold inb; rewrite S1, S2; intros _;
      destruct g as [g|]; cbn; [destruct (px g r c); cbn; intuition congruence|intuition])).
    exists d, d. split; [|split; [exact Hd|]].
    + destruct Hd as (l & L1 & L2 & L3). exists l. split; [assumption|]. split; [assumption|].
      intros r c. rewrite L3. split; [|intuition].
      intros [[X1 X2] X3]. split; [auto|]. split; [left; auto|assumption].
    + assert (0 < d).
      { pose proof (counts_nonneg _ _ _ _ Hd). destruct (Z.eq_dec d 0) as [E|E]; [|lia].
        pose proof (proj1 (counts_zero _ _ _ _ Hd) E) as E'. destruct Hex as (r & c & [X1 X2] & X3).
        exfalso. exact (E' r c X1 X2 X3). }
      auto.
Qed.

Lemma noise_interp_ok cf s rng :
  (exists r c, inb (sl_weight s) r c /\ fleb (px (sl_weight s) r c) fzero = false) ->
  exists im ns pm rng', noise_interp normal2 cf s rng = Ok (im, ns, pm, rng').
Proof.
  intros (r & c & Hin & Hp). unfold noise_interp. cbv zeta. destruct (np_any _); [|eauto].
  assert (Hne : exists mx, np_max (map (fun rc : Z * Z => px (sl_weight s) (fst rc) (snd rc))
      (true_pix (imap negb (imap (fun x => fleb x fzero) (sl_weight s))))) = Ok mx).
  { destruct (map _ (true_pix _)) as [|x l] eqn:E; [|eexists; reflexivity]. exfalso.
    assert (Hi : In (r, c) (true_pix (imap negb (imap (fun x => fleb x fzero) (sl_weight s))))).
    { apply In_true_pix. split; [exact Hin|]. cbn. now rewrite Hp. }
    apply (in_map (fun rc : Z * Z => px (sl_weight s) (fst rc) (snd rc))) in Hi. rewrite E in Hi.
    destruct Hi. }
  destruct Hne as (mx & ->). cbn [bind].
  destruct (noise_fill_one _ _ _ (sl_image s) rng) as [a1 r1].
  destruct (noise_fill_all _ _ _ (sl_noises s) r1) as [l1 r2]. eauto.
Qed.

Lemma symmetrize_ok cf g s nr nc :
  shaped nr nc s -> cf_symmetrize cf = SymOff \/ nr = nc ->
  exists s', symmetrize_slice rotate cf g s = Ok s'.
Proof.
  intros (H1 & H2 & HI & [W1 W2] & [B1 B2] & Hns) Hsq. unfold symmetrize_slice.
  assert (Hb : nr = nc -> forall a, exists b, symmetrize_bmask rotate (sl_bmask s) a g
      (Some (Z.lor (cf_spline_flags cf) (cf_noise_flags cf))) = Ok b).
  { intros E a. unfold symmetrize_bmask. replace (nrows _ =? ncols _) with true by lia.
    destruct a; eexists; reflexivity. }
  assert (Hw : nr = nc -> forall a, exists w, symmetrize_weight rotate (sl_weight s) a g = Ok w).
  { intros E a. unfold symmetrize_weight. replace (nrows _ =? ncols _) with true by lia.
    destruct a; eexists; reflexivity. }
  destruct (cf_symmetrize cf) as [| |l].
  - eauto.
  - destruct Hsq as [|Hsq]; [discriminate|].
    destruct (Hb Hsq None) as (b & ->). cbn [bind]. destruct (Hw Hsq None) as (w & ->). eexists. reflexivity.
  - destruct Hsq as [|Hsq]; [discriminate|].
    assert (Hl : forall w b, exists wb, sym_angles rotate (sl_weight s) (sl_bmask s)
       (Z.lor (cf_spline_flags cf) (cf_noise_flags cf)) g l w b = Ok wb).
    { induction l as [|a l IH]; intros w b; cbn [sym_angles]; [eauto|].
      destruct (Hw Hsq (Some a)) as (w1 & ->). cbn [bind].
      destruct (Hb Hsq (Some a)) as (b1 & ->). cbn [bind]. apply IH. }
    destruct (Hl (sl_weight s) (sl_bmask s)) as ([w b] & ->). eexists. reflexivity.
Qed.

Theorem process_decides cf mg s p rng nr nc :
  (forall r n x, length (fst (normal r n x)) = n) ->
  (forall ps vs, exists f, interpolator ps vs = Ok f) ->
  cf_coadding_weight cf = "noise"%string \/ cf_coadding_weight cf = "noise-fwhm"%string ->
  fleb (cf_max_masked_fraction cf) fone = true ->
  (forall n, 0 < n -> fleb (cf_max_masked_fraction cf) (fdiv (fofZ n) (fofZ n)) = true) ->
  shaped nr nc s -> 2 <= nr -> 2 <= nc -> cf_symmetrize cf = SymOff \/ nr = nc ->
  (forall f, mg = Some f -> exists g, f s = Ok g /\ shape_is nr nc g) ->
  exists v rng', process cf mg s p rng = Ok (v, rng').
Proof.
  intros Hn Hint Hwt Hone Hfr Hs Hr2 Hc2 Hsq Hg. unfold process_slice.
  assert (Hgg : exists g, match mg with Some f => (g <- f s ;; Ok (Some g)) | None => Ok None end = Ok g
                  /\ opt_shape_is nr nc g).
  { destruct mg as [f|].
    - destruct (Hg f eq_refl) as (g & -> & Hsh). exists (Some g). split; [reflexivity|assumption].
    - exists None. split; [reflexivity|exact I]. }
  destruct Hgg as (g & -> & Hgs). cbn [bind].
  destruct (symmetrize_ok cf g s nr nc Hs Hsq) as (s' & Es). rewrite Es. cbn [bind].
  pose proof (symmetrize_slice_shape rotate _ _ _ _ _ _ Es Hs) as Hs'. clear Es Hs Hg s.
  pose proof Hs' as (_ & _ & [I1 I2] & [W1 W2] & [B1 B2] & Hns).
  assert (He : exists e, (if negb (cf_copy_masked_edges cf)
     then slice_full_edge_masked (sl_weight s') (sl_bmask s') (cf_spline_flags cf)
     else Ok false) = Ok e).
  { destruct (cf_copy_masked_edges cf); cbn [negb]; [eauto|].
    destruct (full_edge_spec (sl_weight s') (sl_bmask s') (cf_spline_flags cf)) as (y & -> & _); try lia. eauto. }
  destruct He as (e & ->). cbn [bind]. cbv zeta.
  destruct (fleb (cf_max_masked_fraction cf) (compute_masked_fraction _ _ _ _)) eqn:Em.
  { rewrite !orb_true_r. cbn [orb]. eauto. }
  destruct (e || slice_has_flags _ _ || false || p); [eauto|].
  pose proof (some_weight _ _ _ _ _ nr nc ltac:(lia) ltac:(lia) (conj W1 W2) (conj B1 B2) Hgs Hone Hfr Em) as Hw.
  destruct (noise_interp_ok cf s' rng Hw) as (im & ns & pm & r1 & En). rewrite En. cbn [bind].
  destruct (noise_interp_spec normal2 _ _ _ nr nc _ _ _ _ Hs' En) as (_ & [M1 M2] & Hns1 & [P1 P2] & _).
  assert (Hcp : exists im2 ns2 w2 b2 pm2 skip,
    (if cf_copy_masked_edges cf then
         es <- copy_masked_edges_image_and_noise im ns (sl_weight s')
                 (sl_bmask s') (cf_spline_flags cf) ;;
         msk <- or_changed (img_neq im (es_image es)) ns (es_noises es) ;;
         skip <- slice_full_edge_masked (es_weight es) (es_bmask es) (cf_spline_flags cf) ;;
         Ok (es_image es, es_noises es, es_weight es, es_bmask es, mark_spline pm msk, skip)
       else Ok (im, ns, sl_weight s', sl_bmask s', pm, false)) = Ok (im2, ns2, w2, b2, pm2, skip) /\
    shape_is nr nc im2 /\ Forall (shape_is nr nc) ns2 /\ shape_is nr nc w2).
  { destruct (cf_copy_masked_edges cf).
    - destruct (copy_edges_spec (sl_weight s') (sl_bmask s') (cf_spline_flags cf) ltac:(lia) ltac:(lia)
              im ns ltac:(lia) ltac:(lia) ltac:(lia) ltac:(lia)) as (es & Ees & D1 & D2 & D3 & D4).
      { intros n Hin. rewrite Forall_forall in Hns1. destruct (Hns1 n Hin). lia. }
      rewrite Ees. cbn [bind].
      assert (Hln : length ns = length (es_noises es)) by (eapply Forall2_len; exact D2).
      destruct (or_changed_ok ns (es_noises es) (img_neq im (es_image es)) Hln) as (m & ->). cbn [bind].
      destruct D1 as (D11 & D12 & _). destruct D3 as (D31 & D32 & _). destruct D4 as (D41 & D42 & _).
      destruct (full_edge_spec (es_weight es) (es_bmask es) (cf_spline_flags cf)) as (y & -> & _); try lia.
      cbn [bind]. do 6 eexists. split; [reflexivity|]. unfold shape_is in *.
      split; [lia|]. split; [|lia].
      clear - D2 Hns1. induction D2 as [|a b l l' (K1 & K2 & _) _ IH]; constructor.
      + inversion Hns1 as [|? ? [K3 K4] _]; subst. unfold shape_is. lia.
      + inversion Hns1; subst. auto.
    - do 6 eexists. split; [reflexivity|]. unfold shape_is. auto. }
  destruct Hcp as (im2 & ns2 & w2 & b2 & pm2 & skip & -> & S1 & S2 & S3). cbn [bind].
  destruct skip; [eauto|].
  destruct (and_noise_succeeds normal interpolator median im2 ns2 w2 b2 (cf_spline_flags cf) None
              (fdec 9 10) 4 false 1 Hint ltac:(discriminate)) as (o & x & Eo).
  rewrite Eo. cbn [bind]. destruct o as [[im3 ns3]|]; [|eauto].
  destruct (interp_shapes normal interpolator median _ _ _ _ _ _ _ _ _ _ _ _ _ nr nc Hn S1 S2 S3 Eo)
    as (_ & _ & Hl3).
  match goal with |- context [or_changed ?m ns2 ns3] =>
    destruct (or_changed_ok ns2 ns3 m ltac:(lia)) as (mk & ->) end.
  cbn [bind]. destruct (fleb _ (pmask_fraction _ _)); [eauto|].
  assert (Hbw : exists x, build_coadd_weight measure_fwhm (cf_coadding_weight cf) (sl_weight s') (sl_psf s') = Ok x).
  { assert (Hm : exists m, np_max (ravel (sl_weight s')) = Ok m).
    { destruct (ravel (sl_weight s')) as [|x0 l0] eqn:E; [|eexists; reflexivity]. exfalso.
      destruct Hw as (r & c & Hin & _).
      assert (In (px (sl_weight s') r c) (ravel (sl_weight s'))).
      { unfold ravel. apply in_map_iff. exists (r, c). split; [reflexivity|]. now apply In_allpix. }
      rewrite E in H. destruct H. }
    destruct Hm as (m & Hm). unfold build_coadd_weight.
    destruct Hwt as [-> | ->]; cbn [String.eqb Ascii.eqb Bool.eqb]; rewrite Hm; eexists; reflexivity. }
  destruct Hbw as (wt & ->). cbn [bind]. eauto.
Qed.

Theorem build_decides cf mg srcs rng :
  (forall r n x, length (fst (normal r n x)) = n) ->
  (forall ps vs, exists f, interpolator ps vs = Ok f) ->
  cf_coadding_weight cf = "noise"%string \/ cf_coadding_weight cf = "noise-fwhm"%string ->
  fleb (cf_max_masked_fraction cf) fone = true ->
  (forall n, 0 < n -> fleb (cf_max_masked_fraction cf) (fdiv (fofZ n) (fofZ n)) = true) ->
  (forall src, In src srcs -> candidate src = true ->
     exists s nr nc, src_slice src = Ok s /\ shaped nr nc s /\ 2 <= nr /\ 2 <= nc /\
       (cf_symmetrize cf = SymOff \/ nr = nc)) ->
  (forall f s nr nc, mg = Some f -> shaped nr nc s -> cut_out_of srcs s ->
     exists g, f s = Ok g /\ shape_is nr nc g) ->
  exists out rng', build cf mg srcs rng = Ok (out, rng').
Proof.
  intros Hn Hint Hwt Hone Hfr Hsrc Hg. unfold build_slice_inputs.
  assert (Hrc : exists poss, rough_cut srcs = Ok poss /\
     forall s p, In (s, p) poss -> exists nr nc, shaped nr nc s /\ 2 <= nr /\ 2 <= nc /\
       (cf_symmetrize cf = SymOff \/ nr = nc)).
  { clear - Hsrc. induction srcs as [|src srcs IH]; cbn [rough_cut].
    - exists []. split; [reflexivity|]. intros s p [].
    - destruct IH as (poss & Ep & Hp); [intros; apply Hsrc; [now right|assumption]|].
      pose proof (Hsrc src (or_introl eq_refl)) as Hx. unfold candidate in Hx.
      destruct ((src_image_flags src =? 0) && src_contains_radec src && src_contains_bounds src).
      + destruct (Hx eq_refl) as (s & nr & nc & Es & Hs). rewrite Es, Ep. cbn [bind].
        eexists. split; [reflexivity|]. intros s1 p1 [E|Hin].
        * injection E as <- <-. exists nr, nc. assumption.
        * eapply Hp. exact Hin.
      + exists poss. auto. }
  destruct Hrc as (poss & Erc & Hp). pose proof (rejected_cut cf srcs poss (rough_cut_spec srcs poss Erc)) as Hcut.
  rewrite Erc. cbn [bind].
  destruct (_ || _); [eauto|].
  set (poss' := if cf_reject_outliers cf then _ else _).
  assert (Hp' : forall s p, In (s, p) poss' -> exists nr nc, shaped nr nc s /\ 2 <= nr /\ 2 <= nc /\
       (cf_symmetrize cf = SymOff \/ nr = nc)).
  { unfold poss'. destruct (cf_reject_outliers cf); [|exact Hp]. unfold reject_outliers.
    pose proof (put_pixels_facts 0 (outliers (map (fun sp => sl_image (fst sp)) poss)
                         (map (fun sp => sl_weight (fst sp)) poss)) poss) as Hput.
    revert Hp. clear - Hput. induction Hput as [|x y l l' (_ & _ & _ & _ & _ & H6) _ IH];
      intros Hp s p Hin; [destruct Hin|].
    destruct Hin as [->|Hin].
    - destruct x as [s0 p0]. destruct (Hp s0 p0 (or_introl eq_refl)) as (nr & nc & Hs & Hrest).
      exists nr, nc. split; [apply H6; exact Hs|exact Hrest].
    - apply (IH (fun s1 p1 H => Hp s1 p1 (or_intror H)) s p Hin). }
  fold poss' in Hcut. clearbody poss'. clear Hp poss Hsrc Erc.
  assert (Hall : exists vs r', process_list cf mg poss' rng = Ok (vs, r')).
  { revert rng. induction poss' as [|[s p] l IH]; intros rng; cbn [process_all]; [eauto|].
    destruct (Hp' s p (or_introl eq_refl)) as (nr & nc & Hs & H1 & H2 & H3).
    destruct (process_decides cf mg s p rng nr nc Hn Hint Hwt Hone Hfr Hs H1 H2 H3
                (fun f E => Hg f s nr nc E Hs (Hcut s p (or_introl eq_refl)))) as (v & r1 & ->). cbn [bind].
    destruct (IH (fun s1 p1 H => Hcut s1 p1 (or_intror H)) (fun s1 p1 H => Hp' s1 p1 (or_intror H)) r1) as (vs & r2 & ->). cbn [bind]. eauto. }
  destruct Hall as (vs & r' & ->). cbn [bind]. eauto.
Qed.
End P.
